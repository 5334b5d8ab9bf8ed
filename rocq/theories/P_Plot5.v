(** Item selections and log-likelihood curves. *)
From Coq Require Import String.
From Verif Require Import Base BaseFacts RBase RFacts M_Data M_Logit M_Lik M_Est M_Scale M_Eval M_Plot S_Lik S_Est S_Eval S_Plot
  P_Est3 P_Eval7 P_Plot1 P_Plot2 P_Plot3 P_Plot4 T_Eval.
From Coq Require Import Lia Lra.
Import List.
Local Open Scope R_scope.
Local Open Scope list_scope.

Lemma mapM_index I chosen : items_named I chosen ->
  mapM (fun v => match norm_index I (v - 1) with Some j => Ok j | None => Err IndexError end) chosen = Ok (map (fun v => Z.to_nat (v - 1)) chosen).
Proof. induction 1 as [|v l H _ IH]; cbn [mapM map bind]; [reflexivity|]. rewrite (index_ok I v H). cbn [bind]. rewrite IH. reflexivity. Qed.
Lemma item_mask_ok I chosen : items_named I chosen ->
  item_mask I chosen = Ok (map (fun j => existsb (Z.eqb (Z.of_nat j + 1)) chosen) (seq 0 I)).
Proof.
  intros H. unfold item_mask. rewrite (mapM_index I chosen H). cbn [rmap bind]. f_equal. apply map_ext. intro j. clear -H.
  induction H as [|v l Hv _ IH]; cbn [map existsb]; [reflexivity|]. rewrite IH. f_equal. apply Bool.eq_iff_eq_true. rewrite Nat.eqb_eq, Z.eqb_eq. lia.
Qed.
Lemma select_named {A} (d : A) I (p : nat -> bool) r : length r = I ->
  mask_select (map p (seq 0 I)) r = map (fun j => nth j r d) (filter p (seq 0 I)).
Proof.
  intros <-. rewrite <- (select_filter p (fun j => nth j r d)). f_equal. symmetry.
  apply nth_error_ext. intro k. destruct (Nat.lt_ge_cases k (length r)) as [H|H].
  - rewrite nth_error_map, nth_error_seq by exact H. cbn [option_map Nat.add]. symmetry. now apply nth_error_nth_lt.
  - rewrite (proj2 (nth_error_None _ _)) by (rewrite map_length, seq_length; exact H). symmetry. now apply nth_error_None.
Qed.
Lemma row_as_seq {A} (d : A) r : map (fun j => nth j r d) (seq 0 (length r)) = r.
Proof.
  apply nth_error_ext. intro k. destruct (Nat.lt_ge_cases k (length r)) as [H|H].
  - rewrite nth_error_map, nth_error_seq by exact H. cbn [option_map Nat.add]. symmetry. now apply nth_error_nth_lt.
  - rewrite (proj2 (nth_error_None _ _)) by (rewrite map_length, seq_length; exact H). symmetry. now apply nth_error_None.
Qed.
Lemma masked_named {A B} (d : A) (sum : list A -> B) I chosen rows : Forall (fun r => length r = I) rows ->
  (match chosen with Some l => items_named I l | None => True end) ->
  exists k, (match chosen with None => Ok None | Some l => rmap Some (item_mask I l) end) = Ok k /\
    masked_sums sum k rows = map (fun r => sum (map (fun j => nth j r d) (named I chosen))) rows.
Proof.
  intros HF Hc. rewrite Forall_forall in HF. destruct chosen as [l|].
  - rewrite (item_mask_ok I l Hc). eexists. split; [reflexivity|]. unfold masked_sums. apply map_ext_in. intros r Hr. rewrite (select_named d I) by auto. reflexivity.
  - exists None. split; [reflexivity|]. unfold masked_sums. apply map_ext_in. intros r Hr. cbn [named]. rewrite <- (HF r Hr), row_as_seq. reflexivity.
Qed.

Lemma at2_repeat (data : list cell) N n i : (n < N)%nat -> at2 (repeat data N) n i = nth_error data i.
Proof. intro H. unfold at2. rewrite nth_error_repeat_lt by exact H. reflexivity. Qed.
Lemma named_bound I chosen j : In j (named I chosen) -> (j < I)%nat.
Proof. destruct chosen; cbn [named]; [intro H; apply filter_In in H; destruct H as [H _]|intro H]; apply in_seq in H; lia. Qed.
Lemma drawn_ll em p data chosen grid : has_probabilities em p -> legal_row (em_cats em) data -> grid <> [] -> Forall (fun t => length t = em_lv em) grid ->
  (match chosen with Some l => items_named (em_items em) l | None => True end) ->
  drawn_log_likelihood em data chosen grid =
  Ok (map (fun t => if all_seen data (named (em_items em) chosen) then Some (Fin (pattern_loglik p data (named (em_items em) chosen) t)) else None) grid).
Proof.
  intros Hp Hd NE HF Hc. assert (HN : (0 < length grid)%nat) by (destruct grid; [congruence|cbn; lia]).
  destruct (C77_none em p grid (repeat data (length grid)) LAll Hp HF) as (c & E & [L1 L2] & Hcell).
  - now rewrite repeat_length.
  - unfold legal_data. apply Forall_forall. intros r Hr. apply repeat_spec in Hr. now subst r.
  - rewrite repeat_length. exact HN.
  - rewrite repeat_length in *. unfold drawn_log_likelihood. destruct Hd as [Ld Hd].
    assert (Ed : length data = em_items em) by exact Ld. rewrite Ed, E. cbn [bind].
    destruct (masked_named None fsum (em_items em) chosen c) as (k & Ek & Es).
    + exact L2.
    + exact Hc.
    + rewrite Ek. cbn [bind]. rewrite Es. f_equal. apply nth_error_ext. intro n. rewrite !nth_error_map.
      destruct (nth_error grid n) as [t|] eqn:Et.
      2: { apply nth_error_None in Et. rewrite (proj2 (nth_error_None c n)) by lia. reflexivity. }
      assert (Hn : (n < length grid)%nat) by (apply nth_error_Some; congruence).
      destruct (nth_error c n) as [r|] eqn:Er; [|apply nth_error_None in Er; lia]. cbn [option_map]. f_equal.
      assert (HI : forall i, In i (named (em_items em) chosen) -> nth i r None = if seen [data] 0 i then Some (Fin (cell_loglik p [t] [data] 0 i)) else None).
      { intros i Hi. apply named_bound in Hi. apply nth_error_nth. specialize (Hcell n i Hn Hi). unfold at2 in Hcell. rewrite Er in Hcell. rewrite Hcell. f_equal.
        unfold seen, cell_loglik. rewrite !at2_repeat by exact Hn. change (at2 [data] 0 i) with (nth_error data i).
        rewrite (nth_error_nth _ _ _ Et). reflexivity. }
      rewrite (map_ext_in _ _ _ HI). unfold all_seen, pattern_loglik. destruct (forallb _ _) eqn:EA.
      * rewrite forallb_forall in EA. rewrite <- fsum_fins, map_map. f_equal. apply map_ext_in. intros i Hi. now rewrite (EA i Hi).
      * apply fsum_has_none. assert (X : existsb (fun i => negb (seen [data] 0 i)) (named (em_items em) chosen) = true).
        { clear -EA. induction (named (em_items em) chosen) as [|i l IH]; cbn in *; [discriminate|]. destruct (seen [data] 0 i); cbn in *; auto. }
        apply existsb_exists in X. destruct X as (i & Hi & X). apply in_map_iff. exists i. split; [|exact Hi]. apply Bool.negb_true_iff in X. now rewrite X.
Qed.
(** The figure is that of a curve. *)
Lemma ll_line m em expected p data chosen c v n S (g : nat -> list R) : has_probabilities em p -> legal_row (em_cats em) data -> em_lv em = pl_dim m ->
  (match chosen with Some l => items_named (em_items em) l | None => True end) ->
  (1 <= v <= Z.of_nat (pl_dim m))%Z -> pc_vars c = [v] -> two_values (pc_range c) -> two_values (pc_second c) ->
  steps_are (pc_steps c) 100 n -> (1 <= n)%nat -> plot_grid m n c = Ok (map g (seq 0 n)) -> (forall k, length (g k) = pl_dim m) -> shows m (pc_rescale c) S ->
  log_likelihood_plot m em expected data chosen false c =
  rmap Line (squeezed_trim (map (fun k => nth (Z.to_nat (v - 1)) (S (g k)) 0) (seq 0 n))
    (map (fun k => if all_seen data (named (em_items em) chosen) then Some (Fin (pattern_loglik p data (named (em_items em) chosen) (g k))) else None) (seq 0 n))).
Proof.
  intros Hp Hd HD Hch Hv Hc Hr Hs Hn N1 Hg Hw HS. unfold log_likelihood_plot. rewrite (checks_one m c v) by (auto; lia). cbn [bind].
  assert (E : default_steps 100 18 c = n) by (unfold default_steps, steps_are in *; rewrite Hc; destruct (pc_steps c); auto).
  rewrite E, Hg. cbn [bind].
  assert (HF : Forall (fun t => length t = pl_dim m) (map g (seq 0 n))) by (rewrite Forall_map; apply Forall_forall; auto).
  rewrite Hc, indices_one by exact Hv. cbn [bind]. rewrite (shown_ok m _ _ _ HS HF). cbn [rmap bind map].
  rewrite (drawn_ll em p data chosen _ Hp Hd (ne_map g n N1)) by (rewrite ?HD; assumption). cbn [bind]. unfold column. rewrite !map_map. reflexivity.
Qed.
Lemma ll_expected m em expected fe p data chosen c v n (g : nat -> list R) : has_probabilities em p -> legal_row (em_cats em) data -> em_lv em = pl_dim m ->
  (match chosen with Some l => items_named (em_items em) l | None => True end) ->
  (1 <= v <= Z.of_nat (pl_dim m))%Z -> pc_vars c = [v] -> two_values (pc_range c) -> two_values (pc_second c) ->
  steps_are (pc_steps c) 100 n -> (1 <= n)%nat -> plot_grid m n c = Ok (map g (seq 0 n)) -> (forall k, length (g k) = pl_dim m) -> drawn_by m expected fe ->
  log_likelihood_plot m em expected data chosen true c =
  rmap Line (squeezed_trim (map (fun k => fe (g k)) (seq 0 n))
    (map (fun k => if all_seen data (named (em_items em) chosen) then Some (Fin (pattern_loglik p data (named (em_items em) chosen) (g k))) else None) (seq 0 n))).
Proof.
  intros Hp Hd HD Hch Hv Hc Hr Hs Hn N1 Hg Hw HS. unfold log_likelihood_plot. rewrite (checks_one m c v) by (auto; lia). cbn [bind].
  assert (E : default_steps 100 18 c = n) by (unfold default_steps, steps_are in *; rewrite Hc; destruct (pc_steps c); auto).
  rewrite E, Hg. cbn [bind].
  assert (HF : Forall (fun t => length t = pl_dim m) (map g (seq 0 n))) by (rewrite Forall_map; apply Forall_forall; auto).
  rewrite Hc, indices_one by exact Hv. cbn [bind]. rewrite (HS _ (ne_map g n N1) HF). cbn [rmap bind map].
  rewrite (drawn_ll em p data chosen _ Hp Hd (ne_map g n N1)) by (rewrite ?HD; assumption). cbn [bind]. rewrite !map_map. reflexivity.
Qed.
Lemma ll_surface m em expected p data chosen c v w n S (g : nat * nat -> list R) : has_probabilities em p -> legal_row (em_cats em) data -> em_lv em = pl_dim m ->
  (match chosen with Some l => items_named (em_items em) l | None => True end) ->
  (1 <= v <= Z.of_nat (pl_dim m))%Z -> (1 <= w <= Z.of_nat (pl_dim m))%Z -> (2 <= pl_dim m)%nat -> pc_vars c = [v; w] -> two_values (pc_range c) ->
  steps_are (pc_steps c) 18 n -> (1 <= n)%nat -> plot_grid m n c = Ok (map g (pairs n)) -> (forall k, length (g k) = pl_dim m) -> shows m (pc_rescale c) S ->
  log_likelihood_plot m em expected data chosen false c =
  Ok (Surface (map (fun a => map (fun b => (nth (Z.to_nat (v - 1)) (S (g (a, b))) 0, nth (Z.to_nat (w - 1)) (S (g (a, b))) 0,
     if all_seen data (named (em_items em) chosen) then Some (Fin (pattern_loglik p data (named (em_items em) chosen) (g (a, b)))) else None)) (seq 0 n)) (seq 0 n))).
Proof.
  intros Hp Hd HD Hch Hv Hw H2 Hc Hr Hn N1 Hg Hl HS. unfold log_likelihood_plot. rewrite (checks_two m c v w) by (auto; lia). cbn [bind].
  assert (E : default_steps 100 18 c = n) by (unfold default_steps, steps_are in *; rewrite Hc; destruct (pc_steps c); auto).
  rewrite E, Hg. cbn [bind].
  assert (HF : Forall (fun t => length t = pl_dim m) (map g (pairs n))) by (rewrite Forall_map; apply Forall_forall; auto).
  rewrite Hc, indices_two by assumption. cbn [bind]. rewrite (shown_ok m _ _ _ HS HF). cbn [rmap bind map].
  rewrite (drawn_ll em p data chosen _ Hp Hd (ne_pairs g n N1)) by (rewrite ?HD; assumption). cbn [bind]. unfold column. rewrite !map_map.
  apply (surface_map n (fun q => nth (Z.to_nat (v - 1)) (S (g q)) 0) (fun q => nth (Z.to_nat (w - 1)) (S (g q)) 0)
     (fun q => if all_seen data (named (em_items em) chosen) then Some (Fin (pattern_loglik p data (named (em_items em) chosen) (g q))) else None)).
Qed.
