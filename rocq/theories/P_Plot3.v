(** Lines and surfaces of the plotting functions. *)
From Verif Require Import Base BaseFacts RBase RFacts M_Logit M_Est M_Scale M_Plot S_Plot P_Est3 P_Plot1 P_Plot2.
From Coq Require Import Lia Lra.
Import List.
Local Open Scope R_scope.

Lemma trim_draws {V} n x (y : nat -> V) : (2 <= n)%nat -> draws n x y (rmap Line (trim (map x (seq 0 n)) (map y (seq 0 n)))).
Proof.
  intro Hn. destruct (first_min_exists n x ltac:(lia)) as [p Hp]. destruct (last_min_exists n x ltac:(lia)) as [q Hq]. rewrite (trim_map n x y p q Hp Hq).
  destruct Hp as (P1 & P2 & P3), Hq as (Q1 & Q2 & Q3). unfold draws. cbn [rmap bind]. destruct (Nat.eqb_spec q (n - 1)) as [E|E].
  - exists O, p. split; [lia|]. split; [reflexivity|]. subst q. split.
    + intro I. exfalso. specialize (I O (n - 1)%nat ltac:(lia)). specialize (Q2 O ltac:(lia)). lra.
    + intros I J. exfalso. specialize (Q2 O ltac:(lia)). lra.
  - exists q, (n - q)%nat. split; [lia|]. split; [reflexivity|]. split.
    + intro I. assert (q = O); [|lia]. destruct q as [|q]; [reflexivity|]. exfalso. specialize (I O (S q) ltac:(lia)). specialize (Q2 O ltac:(lia)). lra.
    + intros I J. split; [lia|]. intros k Hk. specialize (I k q ltac:(lia)). specialize (Q2 k ltac:(lia)). lra.
Qed.
Lemma trim_decreasing {V} n x (y : nat -> V) : (1 <= n)%nat -> decreasing n x ->
  trim (map x (seq 0 n)) (map y (seq 0 n)) = Ok (map (fun k => (x k, y k)) (seq 0 (n - 1))).
Proof.
  intros Hn D. rewrite (trim_map n x y (n - 1) (n - 1)).
  - now rewrite Nat.eqb_refl.
  - split; [lia|]. split; [|intros k Hk; apply D; lia]. intros k Hk. destruct (Nat.eq_dec k (n - 1)) as [->|]; [lra|]. left. apply D. lia.
  - split; [lia|]. split; [|lia]. intros k Hk. destruct (Nat.eq_dec k (n - 1)) as [->|]; [lra|]. left. apply D. lia.
Qed.
Lemma trim_flat {V} n x (y : nat -> V) : (1 <= n)%nat -> (forall k, (k < n)%nat -> x k = x O) ->
  trim (map x (seq 0 n)) (map y (seq 0 n)) = Ok [].
Proof.
  intros Hn F. rewrite (trim_map n x y 0 (n - 1)).
  - now rewrite Nat.eqb_refl.
  - split; [lia|]. split; [|lia]. intros k Hk. rewrite (F k Hk). lra.
  - split; [lia|]. split; [|lia]. intros k Hk. rewrite (F k Hk), (F (n - 1)%nat) by lia. lra.
Qed.
Lemma spaced_increasing lo hi n : lo < hi -> increasing n (spaced lo hi n).
Proof.
  intros H a b Hab. unfold spaced. apply Rplus_lt_compat_l. apply Rmult_lt_compat_r; [lra|]. apply Rmult_lt_compat_r; [|apply lt_INR; lia].
  apply Rinv_0_lt_compat. apply lt_0_INR. lia.
Qed.

Lemma ne_map {A} (g : nat -> A) n : (1 <= n)%nat -> map g (seq 0 n) <> [].
Proof. destruct n; [lia|discriminate]. Qed.
Section Lines.
  Context {V : Type} (m : pmodel) (curve : list (list R) -> result (list V)) (f T : list R -> list R) (fv : list R -> V).
  Notation D := (pl_dim m).
  Lemma checks_one c v : (v <= Z.of_nat D)%Z -> (1 <= D)%nat -> pc_vars c = [v] -> two_values (pc_range c) -> two_values (pc_second c) -> plot_checks D c = Ok tt.
  Proof.
    intros Hv HD Hc Hr Hs. unfold plot_checks. rewrite Hc. cbn [length forallb]. replace (2 <? 1)%nat with false by reflexivity. rewrite (proj2 (Nat.ltb_ge D 1) HD). rewrite (proj2 (Z.leb_le _ _) Hv). cbn [andb negb].
    unfold two_values in *. destruct (pc_range c) as [r|]; [rewrite Hr|]; (destruct (pc_second c) as [s|]; [rewrite Hs|]); reflexivity.
  Qed.
  Lemma checks_two c v w : (v <= Z.of_nat D)%Z -> (w <= Z.of_nat D)%Z -> (2 <= D)%nat -> pc_vars c = [v; w] -> two_values (pc_range c) -> plot_checks D c = Ok tt.
  Proof.
    intros Hv Hw HD Hc Hr. unfold plot_checks. rewrite Hc. cbn [length forallb]. replace (2 <? 2)%nat with false by reflexivity. rewrite (proj2 (Nat.ltb_ge D 2) HD). rewrite (proj2 (Z.leb_le _ _) Hv), (proj2 (Z.leb_le _ _) Hw). cbn [andb negb].
    unfold two_values in *. destruct (pc_range c) as [r|]; [rewrite Hr|]; reflexivity.
  Qed.
  Lemma shown_ok r S grid : shows m r S -> Forall (fun t => length t = D) grid -> shown_rows m r grid = Ok (map S grid).
  Proof.
    intros [(-> & NE & _ & H)|[H E]] HF; unfold shown_rows, has_scale.
    - destruct (pl_scales m) as [|s l] eqn:Es; [congruence|]. cbn [andb]. now apply H.
    - assert (X : (r && match pl_scales m with [] => false | _ => true end)%bool = false) by (destruct H as [-> | ->]; [reflexivity|apply Bool.andb_false_r]).
      rewrite X. f_equal. rewrite (map_ext _ (fun t => t)) by exact E. now rewrite map_id.
  Qed.
  Lemma line_core c v n S (g : nat -> list R) : (1 <= v <= Z.of_nat D)%Z -> pc_vars c = [v] -> two_values (pc_range c) -> two_values (pc_second c) ->
    steps_are (pc_steps c) 100 n -> (1 <= n)%nat -> plot_grid m n c = Ok (map g (seq 0 n)) -> (forall k, length (g k) = D) ->
    shows m (pc_rescale c) S -> drawn_by m curve fv ->
    curve_plot m curve c = rmap Line (squeezed_trim (map (fun k => nth (Z.to_nat (v - 1)) (S (g k)) 0) (seq 0 n)) (map (fun k => fv (g k)) (seq 0 n))).
  Proof.
    intros Hv Hc Hr Hs Hn N1 Hg Hw HS HV. unfold curve_plot. rewrite (checks_one c v) by (auto; lia). cbn [bind].
    assert (E : default_steps 100 18 c = n) by (unfold default_steps, steps_are in *; rewrite Hc; destruct (pc_steps c); auto).
    rewrite E, Hg. cbn [bind].
    assert (HF : Forall (fun t => length t = D) (map g (seq 0 n))) by (rewrite Forall_map; apply Forall_forall; auto).
    rewrite (HV _ (ne_map g n N1) HF). cbn [bind]. rewrite (shown_ok _ _ _ HS HF). cbn [bind]. rewrite Hc, indices_one by exact Hv. cbn [bind]. unfold column. rewrite !map_map. reflexivity.
  Qed.
  Lemma prob_core c v n S (g : nat -> list R) fixed : (1 <= v <= Z.of_nat D)%Z -> pc_vars c = [v] -> two_values (pc_range c) -> two_values (pc_second c) ->
    steps_are (pc_steps c) 200 n -> (1 <= n)%nat ->
    match pc_fixed c with
    | None => match pl_training m with Some t => medians (free_mask D [Z.to_nat (v - 1)]) t = Ok fixed | None => fixed = mask_select (free_mask D [Z.to_nat (v - 1)]) (repeat 0 D) end
    | Some f => f = fixed /\ length f = (D - 1)%nat
    end ->
    plot_grid m n (PCall (pc_vars c) (pc_range c) (pc_second c) (pc_steps c) (Some fixed) (pc_rescale c)) = Ok (map g (seq 0 n)) -> (forall k, length (g k) = D) ->
    shows m (pc_rescale c) S -> drawn_by m curve fv ->
    probability_plot m curve c = rmap Line (trim (map (fun k => nth (Z.to_nat (v - 1)) (S (g k)) 0) (seq 0 n)) (map (fun k => fv (g k)) (seq 0 n))).
  Proof.
    intros Hv Hc Hr Hs Hn N1 Hf Hg Hw HS HV. unfold probability_plot. rewrite (checks_one c v) by (auto; lia). cbn [bind]. rewrite Hc in *. rewrite indices_one by exact Hv. cbn [bind].
    assert (E : default_steps 200 25 c = n) by (unfold default_steps, steps_are in *; rewrite Hc; destruct (pc_steps c); auto).
    assert (F : match pc_fixed c with
       | None => match pl_training m with Some t => medians (free_mask D [Z.to_nat (v - 1)]) t | None => Ok (mask_select (free_mask D [Z.to_nat (v - 1)]) (repeat 0 D)) end
       | Some f => if (length f =? D - length [v])%nat then Ok f else Err TypeError
       end = Ok fixed).
    { destruct (pc_fixed c) as [f0|].
      - destruct Hf as [-> L]. cbn [length]. rewrite (proj2 (Nat.eqb_eq _ _) L). reflexivity.
      - destruct (pl_training m); [exact Hf|now rewrite Hf]. }
    rewrite F. cbn [bind]. rewrite E, Hg. cbn [bind].
    assert (HF : Forall (fun t => length t = D) (map g (seq 0 n))) by (rewrite Forall_map; apply Forall_forall; auto).
    rewrite (shown_ok _ _ _ HS HF). cbn [bind]. rewrite (HV _ (ne_map g n N1) HF). cbn [bind]. unfold column. rewrite !map_map. reflexivity.
  Qed.
End Lines.

(** The rows at which a curve is evaluated. *)
Lemma rows_plain m n c v src lo hi fix_ : (1 <= v <= Z.of_nat (pl_dim m))%Z -> pc_vars c = [v] -> ~ on_transformed_scale m (pc_rescale c) ->
  scores_source m (pc_rescale c) src -> range_is src (Z.to_nat (v - 1)) (pc_range c) lo hi -> fixed_are src (pl_dim m) [Z.to_nat (v - 1)] (pc_fixed c) fix_ ->
  plot_grid m n c = Ok (map (fun k => axis_row (pl_dim m) (Z.to_nat (v - 1)) fix_ (spaced lo hi n k)) (seq 0 n)).
Proof.
  intros Hv Hc Ht Hs Hr Hf. rewrite (grid_one m n c v src lo hi fix_) by assumption. cbv zeta.
  destruct (use_transformed m (pc_rescale c)) eqn:E; [apply use_transformed_spec in E; contradiction|reflexivity].
Qed.
Lemma rows_transformed m U n c v src lo hi fix_ : (1 <= v <= Z.of_nat (pl_dim m))%Z -> pc_vars c = [v] -> on_transformed_scale m (pc_rescale c) -> inverts_by m U ->
  scores_source m (pc_rescale c) src -> range_is src (Z.to_nat (v - 1)) (pc_range c) lo hi -> fixed_are src (pl_dim m) [Z.to_nat (v - 1)] (pc_fixed c) fix_ ->
  plot_grid m n c = Ok (map (fun k => U (axis_row (pl_dim m) (Z.to_nat (v - 1)) fix_ (spaced lo hi n k))) (seq 0 n)).
Proof.
  intros Hv Hc Ht [_ HU] Hs Hr Hf. rewrite (grid_one m n c v src lo hi fix_) by assumption. cbv zeta.
  apply use_transformed_spec in Ht. rewrite Ht. unfold one_axis. rewrite HU, map_map; [reflexivity|]. rewrite Forall_map. apply Forall_forall. intros k _. apply axis_row_length.
Qed.
Lemma two_values_range src j given lo hi : range_is src j given lo hi -> two_values given.
Proof. unfold range_is, two_values. destruct given; [now intros ->|auto]. Qed.
