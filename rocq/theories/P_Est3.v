(** EAP scores are posterior means; the integration grid. *)
From Verif Require Import Base BaseFacts RBase RFacts M_Data M_CV P_CV M_Logit M_Lik S_Lik P_Lik1 P_Lik2 P_Lik3 P_Lik5 M_Est S_Est P_Est1.
Local Open Scope R_scope.

Lemma zip_with_app {A B C} (f : A -> B -> C) a1 a2 b1 b2 : length a1 = length b1 ->
  zip_with f (a1 ++ a2) (b1 ++ b2) = zip_with f a1 b1 ++ zip_with f a2 b2.
Proof. revert b1. induction a1; intros [|b b1] H; try discriminate; cbn; auto. f_equal. apply IHa1. now injection H. Qed.
Lemma zip_with_map_r {A B C} (f : A -> B -> C) (g : A -> B) l : zip_with f l (map g l) = map (fun a => f a (g a)) l.
Proof. induction l; cbn; congruence. Qed.
Lemma zip_with_repeat_r {A B C} (f : A -> B -> C) l b : zip_with f l (repeat b (length l)) = map (fun a => f a b) l.
Proof. induction l; cbn; congruence. Qed.
Lemma tile_zip {A B C D} (f : A -> B -> D) (g : C -> A -> B) grid (data : list C) :
  zip_with f (tile (length data) grid) (concat (map (fun r => map (g r) grid) data)) =
  concat (map (fun r => map (fun t => f t (g r t)) grid) data).
Proof.
  induction data as [|r data IH]; [reflexivity|]. unfold tile in *. cbn [length repeat concat map].
  rewrite zip_with_app by now rewrite map_length. now rewrite IH, zip_with_map_r.
Qed.
Lemma tile_interleave_zip {A B D} (f : A -> B -> D) grid (data : list B) :
  zip_with f (tile (length data) grid) (repeat_interleave (length grid) data) =
  concat (map (fun r => map (fun t => f t r) grid) data).
Proof.
  induction data as [|r data IH]; [reflexivity|]. unfold tile, repeat_interleave in *. cbn [length repeat concat map flat_map].
  rewrite zip_with_app by now rewrite repeat_length. now rewrite IH, zip_with_repeat_r.
Qed.
Lemma map_tile {A B} (f : A -> B) k l : map f (tile k l) = tile k (map f l).
Proof. unfold tile. rewrite concat_map. f_equal. apply map_repeat. Qed.
Lemma rowwise_copies m thetas n : rowwise m -> (0 < n)%nat -> Forall (fun t => length t = em_lv m) thetas ->
  exists out, em_forward m thetas = Ok out /\ exists out', cat_copies n out = Ok out' /\ em_forward m (tile n thetas) = Ok out'.
Proof.
  intros Hr Hn HF. pose proof (tile_Forall _ n _ HF) as HF'. destruct n as [|n]; [lia|].
  destruct Hr as [(c & f & H)|(a & b & f & H)].
  - exists (T2 (Wide c (map f thetas))). split; [auto|]. eexists. split; [reflexivity|]. rewrite H by auto. cbn [w_cols w_rows].
    now rewrite map_tile.
  - exists (T3 (Cube a b (map f thetas))). split; [auto|]. eexists. split; [reflexivity|]. rewrite H by auto. cbn [cb_items cb_cats cb_rows].
    now rewrite map_tile.
Qed.
Lemma flat_rowwise m : flat_output m -> rowwise m.
Proof. intro H. left. exact H. Qed.
Lemma fexp_flog a : 0 <= a -> fexp (flog (Some a)) = Some (Fin a).
Proof.
  intro H. destruct (Req_dec a 0) as [-> |]; [now rewrite flog_zero|]. rewrite flog_pos by lra. cbn. now rewrite exp_ln by lra.
Qed.
Lemma concat_map_length {A B} (f : A -> list B) n l : (forall a, In a l -> length (f a) = n) -> length (concat (map f l)) = (length l * n)%nat.
Proof.
  induction l as [|a l IH]; intro H; [reflexivity|]. cbn [map concat]. rewrite app_length, IH by (intros; apply H; now right).
  rewrite H by now left. cbn [length]. lia.
Qed.
Lemma reshape_flat {A} n (ls : list (list A)) : (0 < n)%nat -> Forall (fun l => length l = n) ls -> reshape n (concat ls) = Ok ls.
Proof.
  intros Hn HF. rewrite (reshape_rect n _ (length ls)); [|auto|].
  - f_equal. now apply blocks_flat.
  - clear Hn. induction HF as [|l ls E HF IH]; [reflexivity|]. cbn [concat length]. rewrite app_length, IH, E. lia.
Qed.

Lemma eap_posterior_mean m p grid logpdf data : has_probabilities m p -> rowwise m -> (0 < em_items m)%nat ->
  (0 < length grid)%nat -> Forall (fun t => length t = em_lv m) grid -> data <> [] -> legal_data (em_cats m) data ->
  Forall (fun row => Exists (fun t => 0 < likelihood p t row) grid) data ->
  eap_scores m grid (map (fun t => Some (Fin (logpdf t))) grid) (Wide (em_items m) data) =
    Ok (map (fun row => map (fun d => Some (Fin (posterior_mean p grid (fun t => exp (logpdf t)) row d))) (seq 0 (em_lv m))) data).
Proof.
  intros Hm Hr HI HG HF Hne Hd Hpos. set (I := em_items m) in *. set (N := length data). set (G := length grid) in *.
  assert (HN : (0 < N)%nat) by (unfold N; destruct data; [congruence|cbn; lia]).
  destruct (respondent_ll m p Hm HI (tile N grid) (repeat_interleave G data)) as (out & cells & E1 & E2 & E3 & E4).
  { now apply tile_Forall. }
  { rewrite repeat_interleave_length, tile_length. reflexivity. }
  { now apply repeat_interleave_Forall. }
  fold I in E2, E3, E4.
  destruct (rowwise_copies m grid N Hr HN HF) as (o & Eo & o' & Ec & Eo').
  assert (o' = out) by congruence. subst o'.
  unfold eap_scores. cbn [w_rows w_cols]. fold N G I. rewrite Eo. cbn [bind]. rewrite Ec. cbn [bind]. rewrite E2. cbn [bind cells_of].
  rewrite repeat_interleave_length in E3. rewrite (reshape_rect I cells (length data * G)) by auto. cbn [bind].
  pose proof (tile_interleave_zip (fun t r => flog (Some (likelihood p t r))) grid data) as Et. fold N G in Et. rewrite E4, Et.
  set (a := fun row t => exp (logpdf t) * likelihood p t row).
  assert (Ha : forall row t, In row data -> In t grid -> 0 <= a row t).
  { intros row t Hrow Ht. unfold a. apply Rmult_le_pos; [left; apply exp_pos|].
    unfold legal_data in Hd. rewrite Forall_forall in Hd, HF. eapply likelihood_nonneg; eauto. }
  unfold add_vec. rewrite tile_length, map_length. fold N G.
  rewrite (concat_map_length _ G) by (intros; now rewrite map_length). fold N. rewrite Nat.eqb_refl. cbn [bind].
  rewrite <- map_tile.
  assert (El : zip_with fadd (map (fun t => Some (Fin (logpdf t))) (tile N grid))
                 (concat (map (fun r => map (fun t => flog (Some (likelihood p t r))) grid) data)) =
               concat (map (fun r => map (fun t => flog (Some (a r t))) grid) data)).
  { assert (Ez : forall (l1 : list (list R)) (l2 : list fl), zip_with fadd (map (fun t => Some (Fin (logpdf t))) l1) l2 =
                   zip_with (fun t y => fadd (Some (Fin (logpdf t))) y) l1 l2).
    { induction l1 as [|t l1 IH]; intros [|y l2]; cbn [map zip_with]; auto. now rewrite IH. }
    rewrite Ez. unfold N. rewrite tile_zip. f_equal. apply map_ext_in. intros row Hrow. apply map_ext_in. intros t Ht.
    replace (Some (Fin (logpdf t))) with (flog (Some (exp (logpdf t)))) by (rewrite flog_pos by apply exp_pos; now rewrite ln_exp).
    unfold a. apply flog_mul; [left; apply exp_pos|].
    unfold legal_data in Hd. rewrite Forall_forall in Hd, HF. eapply likelihood_nonneg; eauto. }
  rewrite El.
  rewrite reshape_flat; auto.
  2:{ apply Forall_forall. intros l Hl. apply in_map_iff in Hl as [r [<- _]]. apply map_length. }
  cbn [bind]. rewrite map_map.
  set (s := fun row => rsum (map (a row) grid)).
  assert (Hs : forall row, In row data -> 0 < s row).
  { intros row Hrow. apply rsum_pos.
    - apply Forall_forall. intros x Hx. apply in_map_iff in Hx as [t [<- Ht]]. auto.
    - rewrite Forall_forall in Hpos. apply Exists_exists. destruct (proj1 (Exists_exists _ _) (Hpos row Hrow)) as (t & Ht & Hp).
      exists (a row t). split; [now apply in_map|]. unfold a. apply Rmult_lt_0_compat; [apply exp_pos|auto]. }
  rewrite map_map.
  rewrite (map_ext_in _ (fun row => map (fun t => Some (Fin (a row t / s row))) grid)).
  2:{ intros row Hrow. rewrite !map_map. 
      rewrite (map_ext_in (fun t => fexp (flog (Some (a row t)))) (fun t => Some (Fin (a row t)))) by (intros t Ht; now rewrite fexp_flog by auto).
      rewrite (fsum_map_fin _ (a row)) by auto. fold (s row).
      apply map_ext_in. intros t Ht. rewrite fexp_flog by auto. cbn [fdiv].
      pose proof (Hs row Hrow). destruct (Req_EM_T (s row) 0); [lra|reflexivity]. }
  unfold N. rewrite tile_zip. rewrite reshape_flat; auto.
  2:{ apply Forall_forall. intros l Hl. apply in_map_iff in Hl as [r [<- _]]. apply map_length. }
  cbn [bind]. f_equal. rewrite map_map. apply map_ext_in. intros row Hrow. apply map_ext_in. intros d Hdd. apply in_seq in Hdd.
  unfold column. rewrite map_map.
  rewrite (fsum_map_fin _ (fun t => nth d t 0 * (a row t) / s row)).
  - do 2 f_equal. unfold posterior_mean. fold (a row). change (rsum (map (fun t => exp (logpdf t) * likelihood p t row) grid)) with (s row).
    rewrite <- (map_map (fun t => nth d t 0 * a row t) (fun x => x / s row)). now rewrite rsum_map_div.
  - intros t Ht. assert (Hlt : length t = em_lv m) by (rewrite Forall_forall in HF; auto).
    rewrite (nth_indep _ None (fmul (Some (Fin 0)) (Some (Fin (a row t / s row))))) by (rewrite map_length; lia).
    rewrite (map_nth (fun x => fmul (Some (Fin x)) (Some (Fin (a row t / s row))))). cbn [fmul]. do 2 f_equal. lra.
Qed.

(** A posterior mean is a weighted average. *)
Lemma weighted_average_bounds {A} (w v : A -> R) l lo hi : (forall a, In a l -> 0 <= w a) -> 0 < rsum (map w l) ->
  (forall a, In a l -> lo <= v a <= hi) -> lo <= rsum (map (fun a => v a * w a) l) / rsum (map w l) <= hi.
Proof.
  intros Hw Hs Hv.
  assert (H : lo * rsum (map w l) <= rsum (map (fun a => v a * w a) l) <= hi * rsum (map w l)).
  { clear Hs. induction l as [|a l IH]; cbn; [lra|]. pose proof (Hw a (or_introl eq_refl)). pose proof (Hv a (or_introl eq_refl)).
    assert (lo * rsum (map w l) <= rsum (map (fun a => v a * w a) l) <= hi * rsum (map w l)) by (apply IH; intros; [apply Hw|apply Hv]; now right).
    nra. }
  set (S := rsum (map w l)) in *. set (T := rsum (map (fun a => v a * w a) l)) in *.
  assert (ES : T / S * S = T) by (field; lra). split; apply Rmult_le_reg_r with S; auto; lra.
Qed.

(** ** The integration grid *)
Lemma in_product {V} (ls : list (list V)) t : In t (product ls) <-> Forall2 (fun x l => In x l) t ls.
Proof.
  revert t. induction ls as [|l ls IH]; intro t; cbn [product].
  - split; [intros [<- |[]]; constructor|intro H; inversion H; now left].
  - rewrite in_flat_map. split.
    + intros (x & Hx & H). apply in_map_iff in H as (r & <- & Hr). constructor; auto. now apply IH.
    + intro H. inversion H as [|x l' r ls' Hx Hr]; subst. exists x. split; auto. apply in_map. now apply IH.
Qed.
Lemma Forall2_nth_error {A B} (P : A -> B -> Prop) la lb : Forall2 P la lb -> forall i a b, nth_error la i = Some a -> nth_error lb i = Some b -> P a b.
Proof. induction 1; intros [|i] a b Ha Hb; try discriminate; cbn in *; [congruence|eauto]. Qed.
Lemma Forall2_len {A B} (P : A -> B -> Prop) la lb : Forall2 P la lb -> length la = length lb.
Proof. induction 1; cbn; lia. Qed.
Lemma fold_min_spec l x : In (fold_left Rmin l x) (x :: l) /\ forall y, In y (x :: l) -> fold_left Rmin l x <= y.
Proof.
  revert x. induction l as [|z l IH]; intro x; cbn [fold_left].
  - split; [now left|]. intros y [<- |[]]; lra.
  - destruct (IH (Rmin x z)) as [H1 H2]. split.
    + destruct H1 as [H1|H1]; [|right; now right]. rewrite <- H1. unfold Rmin. destruct (Rle_dec x z); [now left|right; now left].
    + intros y [<- |[<- |Hy]].
      * eapply Rle_trans; [apply H2; now left|apply Rmin_l].
      * eapply Rle_trans; [apply H2; now left|apply Rmin_r].
      * apply H2. now right.
Qed.
Lemma fold_max_spec l x : In (fold_left Rmax l x) (x :: l) /\ forall y, In y (x :: l) -> y <= fold_left Rmax l x.
Proof.
  revert x. induction l as [|z l IH]; intro x; cbn [fold_left].
  - split; [now left|]. intros y [<- |[]]; lra.
  - destruct (IH (Rmax x z)) as [H1 H2]. split.
    + destruct H1 as [H1|H1]; [|right; now right]. rewrite <- H1. unfold Rmax. destruct (Rle_dec x z); [right; now left|now left].
    + intros y [<- |[<- |Hy]].
      * eapply Rle_trans; [apply Rmax_l|apply H2; now left].
      * eapply Rle_trans; [apply Rmax_r|apply H2; now left].
      * apply H2. now right.
Qed.
Lemma rmin_list_spec l : l <> [] -> In (rmin_list l) l /\ forall y, In y l -> rmin_list l <= y.
Proof. destruct l as [|x l]; [congruence|]. intros _. apply fold_min_spec. Qed.
Lemma rmax_list_spec l : l <> [] -> In (rmax_list l) l /\ forall y, In y l -> y <= rmax_list l.
Proof. destruct l as [|x l]; [congruence|]. intros _. apply fold_max_spec. Qed.

Lemma linspace_bounds lo hi n x : lo <= hi -> In x (linspace lo hi n) -> lo <= x <= hi.
Proof.
  intros Hlh H. apply in_map_iff in H as (i & <- & Hi). apply in_seq in Hi.
  destruct (Nat.eq_dec n 1) as [-> |Hn].
  - assert (i = 0%nat) by lia. subst. cbn. lra.
  - assert (Hp : 0 < INR (n - 1)) by (apply lt_0_INR; lia).
    assert (0 <= INR i <= INR (n - 1)) by (split; [apply pos_INR|apply le_INR; lia]).
    set (q := (hi - lo) / INR (n - 1)). assert (Eq : q * INR (n - 1) = hi - lo) by (unfold q; field; lra).
    assert (0 <= q) by (unfold q, Rdiv; apply Rmult_le_pos; [lra|left; now apply Rinv_0_lt_compat]).
    nra.
Qed.
Lemma linspace_first lo hi n : (1 <= n)%nat -> In lo (linspace lo hi n).
Proof. intro H. apply in_map_iff. exists 0%nat. split; [cbn; lra|apply in_seq; lia]. Qed.
Lemma linspace_last lo hi n : (2 <= n)%nat -> In hi (linspace lo hi n).
Proof.
  intro H. apply in_map_iff. exists (n - 1)%nat. split; [|apply in_seq; lia].
  assert (0 < INR (n - 1)) by (apply lt_0_INR; lia). field. lra.
Qed.

Section Grid.
  Variables (lv g : nat) (scores grid : list (list R)).
  Hypotheses (Hne : scores <> []) (Hgrid : theta_grid lv scores g = Ok grid).
  Let axis (d : nat) : list R :=
    let c := column 0 d scores in
    let lo := rmin_list c in let hi := rmax_list c in
    let pm := (hi - lo) * / 4 in linspace (lo - pm) (hi + pm) g.
  Lemma grid_eq : grid = product (map axis (seq 0 lv)).
  Proof. unfold theta_grid in Hgrid. destruct scores; [congruence|]. injection Hgrid as <-. reflexivity. Qed.
  Lemma column_ne d : column 0 d scores <> [].
  Proof. destruct scores; [congruence|discriminate]. Qed.
  Lemma in_grid t : In t grid <-> length t = lv /\ forall d, (d < lv)%nat -> In (nth d t 0) (axis d).
  Proof.
    rewrite grid_eq, in_product. split.
    - intro H. pose proof (Forall2_len _ _ _ H) as Hl. rewrite map_length, seq_length in Hl. split; auto.
      intros d Hd. apply (Forall2_nth_error _ _ _ H d); [apply nth_error_nth_lt; lia|].
      now rewrite (nth_error_map_seq _ lv 0 d).
    - intros [Hl H]. assert (G : forall k l, length l = k -> forall o, (forall d, (d < k)%nat -> In (nth d l 0) (axis (o + d))) ->
        Forall2 (fun x l => In x l) l (map axis (seq o k))).
      { clear. induction k as [|k IH]; intros [|x l] Hl o H; try discriminate; cbn [seq map]; constructor.
        - specialize (H 0%nat ltac:(lia)). now rewrite Nat.add_0_r in H.
        - apply IH; [now injection Hl|]. intros d Hd. specialize (H (S d) ltac:(lia)). cbn [nth] in H.
          now replace (S o + d)%nat with (o + S d)%nat by lia. }
      now apply (G lv t Hl 0%nat).
  Qed.
  Lemma min_le_max d : rmin_list (column 0 d scores) <= rmax_list (column 0 d scores).
  Proof. destruct (rmin_list_spec _ (column_ne d)) as [_ H1]. destruct (rmax_list_spec _ (column_ne d)) as [H2 _]. auto. Qed.
  Lemma grid_bounds t d : In t grid -> (d < lv)%nat ->
    let lo := rmin_list (column 0 d scores) in let hi := rmax_list (column 0 d scores) in
    lo - (hi - lo) / 4 <= nth d t 0 <= hi + (hi - lo) / 4.
  Proof.
    intros Ht Hd lo hi. apply in_grid in Ht as [_ Ht]. specialize (Ht d Hd). unfold axis in Ht. cbv zeta in Ht. fold lo hi in Ht.
    pose proof (min_le_max d) as Hm. fold lo hi in Hm. apply linspace_bounds in Ht; lra.
  Qed.
  Lemma grid_length : length grid = (g ^ lv)%nat.
  Proof.
    rewrite grid_eq, product_length. rewrite map_map.
    rewrite (map_ext _ (fun _ => g)) by (intro; unfold axis, linspace; cbv zeta; now rewrite map_length, seq_length).
    assert (G : forall k o, fold_right Nat.mul 1%nat (map (fun _ => g) (seq o k)) = (g ^ k)%nat).
    { induction k as [|k IH]; intro o; [reflexivity|]. cbn [seq map fold_right Nat.pow]. now rewrite IH. }
    apply G.
  Qed.
  (** The extreme corners are grid points. *)
  Lemma grid_corner (up : nat -> bool) : (2 <= g)%nat -> exists t, In t grid /\ forall d, (d < lv)%nat ->
    let lo := rmin_list (column 0 d scores) in let hi := rmax_list (column 0 d scores) in
    nth d t 0 = if up d then hi + (hi - lo) / 4 else lo - (hi - lo) / 4.
  Proof.
    intro Hg. set (c := fun d => let lo := rmin_list (column 0 d scores) in let hi := rmax_list (column 0 d scores) in
      if up d then hi + (hi - lo) / 4 else lo - (hi - lo) / 4). exists (map c (seq 0 lv)).
    assert (Hn : forall d, (d < lv)%nat -> nth d (map c (seq 0 lv)) 0 = c d).
    { intros d Hd. apply nth_error_nth. now rewrite (nth_error_map_seq _ lv 0 d). }
    split; [|intros d Hd; rewrite Hn by auto; reflexivity].
    apply in_grid. split; [now rewrite map_length, seq_length|]. intros d Hd. rewrite Hn by auto. unfold c, axis. cbv zeta.
    destruct (up d); [apply linspace_last|apply linspace_first]; lia.
  Qed.
End Grid.
