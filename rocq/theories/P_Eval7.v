(** Log-likelihood of the cells and of groups of respondents. *)
From Coq Require Import Permutation Sorted String.
From Verif Require Import Base BaseFacts RBase RFacts M_Data M_Mono M_Lik M_Est M_Stat M_Grid M_Eval S_Lik S_Est S_Eval P_CV P_Mono1 P_Lik3 P_Grid1 P_Est1 P_Eval1 P_Eval6.
Import List.
Local Open Scope R_scope.

(** ** Cells *)
Lemma view_rows_grid {A} N I (f : nat -> nat -> A) (l : list A) : (0 < N)%nat -> length l = (N * I)%nat ->
  (forall n i, (n < N)%nat -> (i < I)%nat -> nth_error l (n * I + i) = Some (f n i)) -> view_rows N l = Ok (grid N I f).
Proof.
  intros HN Hl H. rewrite (view_rows_rect N I l HN Hl). f_equal. unfold grid. apply map_ext_in. intros n Hn. apply in_seq in Hn.
  apply nth_error_ext. intros i. destruct (Nat.lt_ge_cases i I) as [Hi|Hi].
  - rewrite nth_error_firstn_lt, nth_error_skipn_add, H by lia. now rewrite (nth_error_map_seq _ I 0 i) by exact Hi.
  - rewrite !(proj2 (nth_error_None _ _)); [reflexivity|rewrite map_length, seq_length; lia|rewrite firstn_length; lia].
Qed.
Lemma seen_masked rows n i row c : nth_error rows n = Some row -> nth_error row i = Some c ->
  masked (Some (map (map missing_cell) rows)) n i = negb (seen rows n i).
Proof.
  intros H1 H2. rewrite (masked_missing rows n i row c H1 H2). unfold seen, at2. rewrite H1, H2.
  unfold missing_cell. destruct c as [z|]; [|reflexivity]. cbn [is_m1 is_nan]. now rewrite Bool.negb_involutive, Bool.orb_false_r.
Qed.
Section Cells.
  Variables (m : emodel) (p : list R -> nat -> nat -> R).
  Hypothesis (Hm : has_probabilities m p).
  Notation I := (em_items m).
  Definition cell_fl thetas rows n i : fl := if seen rows n i then flog (Some (p (nth n thetas []) i (cell_value rows n i))) else None.
  Lemma cells_ok thetas rows : Forall (fun t => length t = em_lv m) thetas -> length thetas = length rows -> legal_data (em_cats m) rows ->
    exists l, cell_log_likelihoods m thetas (Wide I rows) (mask_of (Wide I rows)) = Ok l /\ length l = (length rows * I)%nat /\
      forall n i, (n < length rows)%nat -> (i < I)%nat -> nth_error l (n * I + i) = Some (cell_fl thetas rows n i).
  Proof.
    intros HF Hl Hd. destruct Hm as [Hpos Hcell].
    destruct (Hcell thetas rows (Some (map (map missing_cell) rows)) (cell_value rows) HF) as (out & cells & E1 & E2 & E3 & E4).
    - rewrite Hl. now apply legal_data_rect.
    - cbn [rect_opt]. destruct (legal_data_rect _ _ Hd) as [H1 H2]. split; [now rewrite map_length, Hl|].
      apply Forall_forall. intros r Hr. apply in_map_iff in Hr as [r' [<- Hr']]. rewrite map_length.
      rewrite Forall_forall in H2. auto.
    - rewrite Hl. now apply legal_data_responses.
    - exists cells. rewrite Hl in E3. split; [|split; [exact E3|]].
      + unfold cell_log_likelihoods. rewrite E1. cbn [bind]. unfold mask_of. cbn [w_cols w_rows]. cbn [option_map] in E2. rewrite E2. reflexivity.
      + intros n i Hn Hi. assert (En : nth_error thetas n = Some (nth n thetas [])) by (apply nth_error_nth_lt; lia).
        rewrite (E4 n i _ En Hi). assert (Er : nth_error rows n = Some (nth n rows [])) by (now apply nth_error_nth_lt).
        destruct (legal_data_rect _ _ Hd) as [_ H2]. rewrite Forall_forall in H2. pose proof (H2 _ (nth_error_In _ _ Er)) as L. cbv beta in L.
        rewrite (seen_masked rows n i _ (nth i (nth n rows []) None) Er).
        2:{ apply nth_error_nth_lt. unfold em_items in Hi. lia. }
        unfold cell_fl. now destruct (seen rows n i).
  Qed.
  Lemma seen_legal rows n i : legal_data (em_cats m) rows -> (n < length rows)%nat -> (i < I)%nat -> seen rows n i = true ->
    (cell_value rows n i < nth i (em_cats m) O)%nat /\ at2 rows n i = Some (Some (Z.of_nat (cell_value rows n i))).
  Proof.
    intros Hd Hn Hi Hs. assert (Er : nth_error rows n = Some (nth n rows [])) by (now apply nth_error_nth_lt).
    unfold legal_data in Hd. rewrite Forall_forall in Hd. destruct (Hd _ (nth_error_In _ _ Er)) as [Hrl Hrc].
    assert (Ei : nth_error (nth n rows []) i = Some (nth i (nth n rows []) None)) by (apply nth_error_nth_lt; unfold em_items in Hi; lia).
    unfold seen, cell_value, at2 in *. rewrite Er, Ei in *. destruct (Hrc i _ Ei) as [E|[E|(k & E & Hk)]]; rewrite E in *; try discriminate Hs.
    rewrite Nat2Z.id. auto.
  Qed.
  Lemma cell_value_p thetas rows n i : Forall (fun t => length t = em_lv m) thetas -> length thetas = length rows -> legal_data (em_cats m) rows ->
    (n < length rows)%nat -> (i < I)%nat -> floor30 (cell_fl thetas rows n i) = if seen rows n i then Some (Fin (cell_loglik p thetas rows n i)) else None.
  Proof.
    intros HF Hl Hd Hn Hi. unfold cell_fl. destruct (seen rows n i) eqn:Hs; [|reflexivity].
    destruct (seen_legal rows n i Hd Hn Hi Hs) as [Hk E]. unfold cell_loglik. rewrite E, Nat2Z.id. cbv zeta.
    assert (Ht : length (nth n thetas []) = em_lv m). { rewrite Forall_forall in HF. apply HF. apply nth_In. lia. }
    pose proof (proj1 Hm (nth n thetas []) i _ Ht Hk) as P. set (q := p _ _ _) in *. unfold flog.
    destruct (Rlt_dec 0 q); [reflexivity|]. destruct (Req_EM_T q 0); [reflexivity|lra].
  Qed.
  (** log_likelihood before the reduction. *)
  Lemma loglik_rows thetas rows reduction lv : Forall (fun t => length t = em_lv m) thetas -> length thetas = length rows -> legal_data (em_cats m) rows ->
    (0 < length rows)%nat ->
    let cells := grid (length rows) I (fun n i => if seen rows n i then Some (Fin (cell_loglik p thetas rows n i)) else None) in
    log_likelihood m thetas (Wide I rows) reduction lv =
      if substring_of reduction "mean"%string then Ok (f_by_level fnanmean lv I cells)
      else if String.eqb reduction "sum"%string then Ok (f_by_level fnansum lv I cells)
      else Ok (FFull cells).
  Proof.
    intros HF Hl Hd HN cells. destruct (cells_ok thetas rows HF Hl Hd) as (l & E & L & C). unfold log_likelihood. rewrite E. cbn [bind].
    rewrite (view_rows_grid (length thetas) I (fun n i => if seen rows n i then Some (Fin (cell_loglik p thetas rows n i)) else None)).
    - cbn [bind]. rewrite L, Hl, Nat.mul_comm, Nat.div_mul by lia. reflexivity.
    - lia.
    - rewrite map_length, L. now rewrite Hl.
    - intros n i Hn Hi. rewrite nth_error_map, C by lia. cbn [option_map]. f_equal. apply cell_value_p; auto. lia.
  Qed.
End Cells.
(** Sums and means of the observed entries of a list. *)
Fixpoint fknown (l : list fl) : list R := match l with [] => [] | Some (Fin x) :: l' => x :: fknown l' | _ :: l' => fknown l' end.
Definition tame (l : list fl) : Prop := Forall (fun x => x = None \/ exists r, x = Some (Fin r)) l.
Lemma fnansum_tame l : tame l -> fnansum l = Some (Fin (rsum (fknown l))).
Proof.
  unfold fnansum. induction 1 as [|x l [->|(r & ->)] H IH]; [reflexivity| |]; cbn [map fsum fold_right nan_to_zero fknown rsum];
  change (fold_right fadd (Some (Fin 0)) (map nan_to_zero l)) with (fsum (map nan_to_zero l)); rewrite IH; cbn; [now rewrite Rplus_0_l|reflexivity].
Qed.
Lemma present_tame l : tame l -> present_fl l = map (fun r => Some (Fin r)) (fknown l).
Proof. unfold present_fl. induction 1 as [|x l [->|(r & ->)] H IH]; cbn; [reflexivity|exact IH|]. f_equal. exact IH. Qed.
Lemma fsum_fins l : fsum (map (fun r => Some (Fin r)) l) = Some (Fin (rsum l)).
Proof. induction l as [|x l IH]; [reflexivity|]. cbn [map fsum fold_right rsum]. change (fold_right fadd (Some (Fin 0)) ?z) with (fsum z). now rewrite IH. Qed.
Lemma fmean_fins l : fmean (map (fun r => Some (Fin r)) l) = match l with [] => None | _ => Some (Fin (rsum l / INR (length l))) end.
Proof.
  unfold fmean. rewrite fsum_fins, map_length. destruct l as [|x l]; [reflexivity|]. unfold fdiv_nat.
  destruct (Nat.eqb_spec (length (x :: l)) 0) as [E|_]; [discriminate E|reflexivity].
Qed.
Lemma fknown_map {A} (s : A -> bool) (v : A -> R) l : fknown (map (fun a => if s a then Some (Fin (v a)) else None) l) = map v (filter s l).
Proof. induction l as [|a l IH]; [reflexivity|]. cbn. destruct (s a); cbn; now rewrite IH. Qed.
Lemma tame_map {A} (s : A -> bool) (v : A -> R) l : tame (map (fun a => if s a then Some (Fin (v a)) else None) l).
Proof. apply Forall_forall. intros x H. apply in_map_iff in H as (a & <- & _). destruct (s a); [right; eauto|now left]. Qed.
Lemma fnansum_cells {A} (s : A -> bool) (v : A -> R) l : fnansum (map (fun a => if s a then Some (Fin (v a)) else None) l) = Some (Fin (rsum (map v (filter s l)))).
Proof. rewrite fnansum_tame by apply tame_map. now rewrite fknown_map. Qed.
Lemma fnanmean_cells {A} (s : A -> bool) (v : A -> R) l : fnanmean (map (fun a => if s a then Some (Fin (v a)) else None) l) =
  match map v (filter s l) with [] => None | x => Some (Fin (rsum x / INR (length x))) end.
Proof. unfold fnanmean. rewrite present_tame by apply tame_map. rewrite fmean_fins, fknown_map. now destruct (map v (filter s l)). Qed.
Lemma f_level (F : list fl -> fl) lv N I (s : nat -> nat -> bool) (v : nat -> nat -> R) :
  let cells := grid N I (fun n i => if s n i then Some (Fin (v n i)) else None) in
  f_by_level F lv I cells =
    match lv with
    | LItem => FVec (map (fun i => F (map (fun n => if s n i then Some (Fin (v n i)) else None) (everyone N))) (seq 0 I))
    | LRespondent => FVec (map (fun n => F (map (fun i => if s n i then Some (Fin (v n i)) else None) (seq 0 I))) (everyone N))
    | LAll => FOne (F (map (fun c => if s (fst c) (snd c) then Some (Fin (v (fst c) (snd c))) else None) (all_cells N I)))
    end.
Proof.
  cbv zeta. destruct lv; cbn [f_by_level].
  - f_equal. unfold over_respondents. apply map_ext_in. intros i Hi. apply in_seq in Hi. f_equal. rewrite column_grid by lia. reflexivity.
  - f_equal. unfold grid. rewrite map_map. reflexivity.
  - f_equal. f_equal. rewrite concat_grid. reflexivity.
Qed.

(** ** Groups *)
Lemma fsum_none l : fsum l = None <-> (In None l \/ (In (Some PInf) l /\ In (Some NInf) l)).
Proof.
  assert (G : (fsum l = None <-> (In None l \/ (In (Some PInf) l /\ In (Some NInf) l))) /\
              (fsum l = Some PInf <-> (~ In None l /\ In (Some PInf) l /\ ~ In (Some NInf) l)) /\
              (fsum l = Some NInf <-> (~ In None l /\ ~ In (Some PInf) l /\ In (Some NInf) l))).
  { induction l as [|x l (I1 & I2 & I3)].
    - cbn. split; [|split]; split; intros H; try discriminate; intuition.
    - change (fsum (x :: l)) with (fadd x (fsum l)). cbn [In].
      destruct x as [[r| |]|]; destruct (fsum l) as [[s| |]|] eqn:E; cbn [fadd];
      (split; [|split]); split; intros H; try discriminate; try congruence;
      repeat match goal with
      | H : Some _ = Some _ <-> _ |- _ => first [apply proj1 in H; specialize (H eq_refl) | apply proj2 in H]
      | H : None = None <-> _ |- _ => apply proj1 in H; specialize (H eq_refl)
      | H : _ <-> _ |- _ => apply proj2 in H
      end; intuition congruence. }
  apply G.
Qed.
Lemma fsum_has_none l : In None l -> fsum l = None.
Proof. intros H. apply fsum_none. now left. Qed.
Lemma fmean_has_none l : In None l -> fmean l = None.
Proof. intros H. unfold fmean. now rewrite fsum_has_none. Qed.
Lemma fsum_fnansum l : ~ In None l -> fsum l = fnansum l.
Proof.
  unfold fnansum. intros H. f_equal. symmetry. rewrite <- (map_id l) at 2. apply map_ext_in. intros x Hx. destruct x; [reflexivity|contradiction].
Qed.
Lemma argsort_length l : length (argsort_r l) = length l.
Proof. unfold argsort_r. rewrite map_length. apply sort_indexed_length. Qed.
(** A missing answer leaves NaN in the result. *)
Lemma group_slices_in {A} groups (l : list A) x : (0 < groups)%nat -> In x l -> exists G, In G (group_slices groups l) /\ In x G.
Proof.
  intros Hg Hx. destruct (group_slices_spec groups l Hg) as [E _]. rewrite <- E in Hx. apply in_concat in Hx as (G & H1 & H2). eauto.
Qed.
Lemma missing_gives_nan m thetas data groups latent_variable out : marks_missing m -> (0 < groups)%nat ->
  Forall (fun r => length r = w_cols data) (w_rows data) -> (exists r c, In r (w_rows data) /\ In c r /\ missing_cell c = true) ->
  group_fit_log_likelihood m thetas data groups latent_variable = Ok out -> In None out.
Proof.
  intros Hm Hg HR (r & c & Hr & Hc & Hmc) H. unfold group_fit_log_likelihood in H.
  destruct (lv_column _ _ _) as [col|] eqn:E0; [|discriminate]. cbn [bind] in H.
  destruct (take_rows _ thetas) as [thetas'|] eqn:E1; [|discriminate]. cbn [bind] in H.
  destruct (take_rows _ (w_rows data)) as [rows'|] eqn:E2; [|discriminate]. cbn [bind] in H.
  destruct (cell_log_likelihoods _ _ _ _) as [ll|] eqn:E3; [|discriminate]. cbn [bind] in H.
  destruct (view_rows _ _) as [rows|] eqn:E4; [|discriminate]. cbn [bind] in H.
  assert (Eo : out = map fmean (group_slices groups (map fsum rows))) by congruence. clear H.
  assert (HN : In None ll).
  { unfold cell_log_likelihoods in E3. destruct (em_forward m thetas') as [o|]; [|discriminate]. cbn [bind] in E3.
    destruct (em_ll m _ _ _ _) as [[s|l]|] eqn:E5; try discriminate E3. cbn in E3. assert (ll = l) by congruence. subst ll.
    apply (Hm _ _ _ _) with (2 := E5).
    - unfold mask_of. cbn [w_rows w_cols]. rewrite Forall_map. eapply Forall_impl; [|exact HR]. intros a Ha. cbv beta in *. now rewrite map_length.
    - exists (map missing_cell r). unfold mask_of. cbn [w_rows]. split; [now apply in_map|]. rewrite <- Hmc. now apply in_map. }
  unfold view_rows in E4. destruct ((0 <? length thetas)%nat && (length ll mod length thetas =? 0)%nat)%bool eqn:Eb; [|discriminate].
  apply andb_prop in Eb as [B1 B2]. apply Nat.ltb_lt in B1. apply Nat.eqb_eq in B2.
  set (w := (length ll / length thetas)%nat) in *. assert (Lw : length ll = (length thetas * w)%nat).
  { unfold w. pose proof (Nat.div_mod (length ll) (length thetas)). lia. }
  apply In_nth_error in HN as (q & Hq). assert (Q : (q < length thetas * w)%nat) by (rewrite <- Lw; apply nth_error_Some; congruence).
  assert (W : (0 < w)%nat) by (destruct w; lia).
  assert (Erow : In (fsum (firstn w (skipn (q / w * w) ll))) (map fsum rows)).
  { apply in_map. assert (rows = map (fun i => firstn w (skipn (i * w) ll)) (seq 0 (length thetas))) by congruence. subst rows.
    apply in_map_iff. exists (q / w)%nat. split; [reflexivity|]. apply in_seq. split; [lia|]. apply Nat.div_lt_upper_bound; lia. }
  rewrite fsum_has_none in Erow.
  - subst out. destruct (group_slices_in groups _ _ Hg Erow) as (G & G1 & G2). apply in_map_iff. exists G. split; [now apply fmean_has_none|assumption].
  - apply (nth_error_In _ (q mod w)). rewrite nth_error_firstn_lt by (apply Nat.mod_upper_bound; lia). rewrite nth_error_skipn_add.
    rewrite <- Hq. f_equal. pose proof (Nat.div_mod q w). lia.
Qed.
Lemma nth_legal cats rows n : legal_data cats rows -> (n < length rows)%nat -> legal_row cats (nth n rows []).
Proof. intros H Hn. unfold legal_data in H. rewrite Forall_forall in H. apply H. now apply nth_In. Qed.
Lemma complete_mask cats rows : legal_data cats rows -> complete (length rows) (length cats) rows ->
  map (map missing_cell) rows = grid (length rows) (length cats) (fun _ _ => false).
Proof.
  intros Hd Hc. destruct (legal_data_rect _ _ Hd) as [_ HR]. unfold grid. apply nth_error_ext. intros n. rewrite nth_error_map.
  destruct (Nat.lt_ge_cases n (length rows)) as [Hn|Hn].
  - rewrite (nth_error_nth_lt rows n []) by exact Hn. rewrite (nth_error_map_seq _ (length rows) 0 n) by exact Hn. cbn [option_map]. f_equal.
    rewrite Forall_forall in HR. pose proof (HR (nth n rows []) (nth_In _ _ Hn)) as L. cbv beta in L.
    apply nth_error_ext. intros i. rewrite nth_error_map. destruct (Nat.lt_ge_cases i (length cats)) as [Hi|Hi].
    + rewrite (nth_error_nth_lt (nth n rows []) i None) by lia. rewrite (nth_error_map_seq _ (length cats) 0 i) by exact Hi. cbn [option_map]. f_equal.
      specialize (Hc n i Hn Hi). unfold seen, at2 in Hc. rewrite (nth_error_nth_lt rows n []) in Hc by exact Hn.
      rewrite (nth_error_nth_lt (nth n rows []) i None) in Hc by lia. destruct (nth i (nth n rows []) None) as [z|]; [|discriminate].
      unfold missing_cell. cbn [is_m1 is_nan]. destruct (z =? -1)%Z; [discriminate|reflexivity].
    + rewrite (proj2 (nth_error_None (nth n rows []) i)) by lia. symmetry. apply nth_error_None. rewrite map_length, seq_length. lia.
  - rewrite (proj2 (nth_error_None rows n)) by lia. symmetry. apply nth_error_None. rewrite map_length, seq_length. lia.
Qed.
Lemma zip_with_map2 {A B C D} (f : B -> C -> D) (g : A -> B) (h : A -> C) l : zip_with f (map g l) (map h l) = map (fun a => f (g a) (h a)) l.
Proof. induction l as [|a l IH]; [reflexivity|]. cbn. now rewrite IH. Qed.
Lemma flog_fmean {A} (f : A -> R) G : G <> [] -> (forall n, In n G -> 0 < f n) ->
  fmean (map (fun n => flog (Some (f n))) G) = Some (Fin (rsum (map (fun n => ln (f n)) G) / INR (length G))).
Proof.
  intros HG H. replace (map (fun n => flog (Some (f n))) G) with (map (fun r => Some (Fin r)) (map (fun n => ln (f n)) G)).
  - rewrite fmean_fins, map_length. destruct G; [congruence|reflexivity].
  - rewrite map_map. apply map_ext_in. intros n Hn. unfold flog. destruct (Rlt_dec 0 (f n)); [reflexivity|]. specialize (H n Hn). lra.
Qed.
Lemma group_loglik_spec m p thetas rows groups j : has_probabilities m p -> (0 < em_items m)%nat ->
  Forall (fun t => length t = em_lv m) thetas -> length thetas = length rows -> legal_data (em_cats m) rows -> (0 < length rows)%nat ->
  complete (length rows) (em_items m) rows -> (0 < groups)%nat -> (j < em_lv m)%nat ->
  let score := fun n => nth j (nth n thetas []) 0 in
  exists order gs out, group_fit_log_likelihood m thetas (Wide (em_items m) rows) groups (S j) = Ok out /\
    increasing_order score (length rows) order /\
    splits_into order (map (slice_size (length rows) groups) (seq 0 groups)) gs /\ ordered_groups score gs /\
    length out = length gs /\ forall g G x, nth_error gs g = Some G -> nth_error out g = Some x -> group_loglik p thetas rows G x.
Proof.
  intros Hm HI HF Hl Hd HN Hc Hg Hj score. set (col := column 0 j thetas). set (order := argsort_r col).
  assert (Lc : length col = length rows) by (unfold col, column; now rewrite map_length).
  destruct (argsort_order col) as [Oinc Osort]. fold order in Oinc, Osort. rewrite Lc in Oinc.
  assert (SC : forall n, (n < length rows)%nat -> nth n col 0 = score n).
  { intros n Hn. unfold col, column, score. apply nth_error_nth. rewrite nth_error_map.
    rewrite (nth_error_nth_lt thetas n []) by lia. reflexivity. }
  assert (OR : forall n, In n order -> (n < length rows)%nat) by (intros n; apply Oinc).
  set (gs := group_slices groups order). assert (Lo : length order = length rows) by (unfold order; now rewrite argsort_length).
  pose proof (group_slices_spec groups order Hg) as GS. rewrite Lo in GS. fold gs in GS.
  set (th' := map (fun n => nth n thetas []) order). set (rw' := map (fun n => nth n rows []) order).
  assert (Ld' : length rw' = length rows) by (unfold rw'; now rewrite map_length).
  assert (HF' : Forall (fun t => length t = em_lv m) th').
  { unfold th'. rewrite Forall_map. apply Forall_forall. intros n Hn. rewrite Forall_forall in HF. apply HF. apply nth_In. rewrite Hl. now apply OR. }
  assert (Hd' : legal_data (em_cats m) rw').
  { unfold rw', legal_data. rewrite Forall_map. apply Forall_forall. intros n Hn. apply nth_legal; auto. }
  assert (Hl' : length th' = length rw') by (unfold th', rw'; now rewrite !map_length).
  assert (Hc' : complete (length rw') (length (em_cats m)) rw').
  { intros n i Hn Hi. rewrite Ld' in Hn. assert (Ho : nth_error order n = Some (nth n order O)) by (apply nth_error_nth_lt; lia).
    unfold seen, at2, rw'. rewrite nth_error_map, Ho. cbn [option_map].
    assert (Hk : (nth n order O < length rows)%nat) by (apply OR; apply (nth_error_In _ _ Ho)).
    pose proof (Hc _ i Hk Hi) as Z. unfold seen, at2 in Z. rewrite (nth_error_nth_lt rows _ []) in Z by exact Hk. exact Z. }
  assert (MM : mask_of (Wide (em_items m) rows) = mask_of (Wide (em_items m) rw')).
  { unfold mask_of. cbn [w_cols w_rows]. f_equal. rewrite (complete_mask (em_cats m) rows Hd Hc), (complete_mask (em_cats m) rw' Hd' Hc'). now rewrite Ld'. }
  destruct (cells_ok m p Hm th' rw' HF' Hl' Hd') as (l & E & L & C).
  destruct (respondent_ll m p Hm HI th' rw' HF' Hl' Hd') as (out & cells & R1 & R2 & R3 & R4).
  assert (l = cells). { unfold cell_log_likelihoods in E. rewrite R1 in E. cbn [bind] in E. rewrite R2 in E. cbn in E. congruence. } subst cells.
  assert (NN : ~ In None l).
  { intros Hin. apply In_nth_error in Hin as (q & Hq). assert (Q : (q < length rw' * em_items m)%nat) by (rewrite <- L; apply nth_error_Some; congruence).
    assert (Q1 : (q / em_items m < length rw')%nat) by (apply Nat.div_lt_upper_bound; lia).
    assert (Q2 : (q mod em_items m < em_items m)%nat) by (apply Nat.mod_upper_bound; lia).
    pose proof (C _ _ Q1 Q2) as X. replace (q / em_items m * em_items m + q mod em_items m)%nat with q in X by (pose proof (Nat.div_mod q (em_items m)); lia).
    rewrite Hq in X. unfold cell_fl in X. rewrite (Hc' _ _ Q1 Q2) in X.
    destruct (seen_legal m rw' _ _ Hd' Q1 Q2 (Hc' _ _ Q1 Q2)) as [K _].
    assert (T : length (nth (q / em_items m) th' []) = em_lv m). { rewrite Forall_forall in HF'. apply HF'. apply nth_In. lia. }
    pose proof (proj1 Hm _ _ _ T K) as P. assert (X' : None = flog (Some (p (nth (q / em_items m) th' []) (q mod em_items m) (cell_value rw' (q / em_items m) (q mod em_items m))))) by congruence.
    unfold flog in X'. destruct (Rlt_dec 0 _); [discriminate|]. destruct (Req_EM_T _ 0); [discriminate|]. lra. }
  assert (V : view_rows (length thetas) l = Ok (blocks (em_items m) l)).
  { rewrite (view_rows_rect (length thetas) (em_items m) l) by (lia || (rewrite L; lia)). f_equal. symmetry. apply blocks_rect; [exact HI|]. rewrite L. lia. }
  assert (S' : map fsum (blocks (em_items m) l) = map (fun n => flog (Some (likelihood p (nth n thetas []) (nth n rows [])))) order).
  { transitivity (map fnansum (blocks (em_items m) l)).
    - apply map_ext_in. intros b Hb. apply fsum_fnansum. intros Hn. apply NN. rewrite (blocks_rect (length rw') (em_items m) l HI L) in Hb.
      apply in_map_iff in Hb as (i & <- & _). apply In_nth_error in Hn as (x & Hx).
      assert (Xi : (x < em_items m)%nat). { assert (x < length (firstn (em_items m) (skipn (i * em_items m) l)))%nat by (apply nth_error_Some; congruence). rewrite firstn_length in H. lia. }
      rewrite nth_error_firstn_lt, nth_error_skipn_add in Hx by exact Xi. apply (nth_error_In _ _ Hx).
    - rewrite R4. unfold th', rw'. apply zip_with_map2. }
  exists order, gs, (map (fun G => fmean (map (fun n => flog (Some (likelihood p (nth n thetas []) (nth n rows [])))) G)) gs).
  split; [|split; [|split; [exact GS|split; [|split]]]].
  - unfold group_fit_log_likelihood. rewrite lv_column_ok by exact Hj. cbn [bind]. fold col. fold order.
    rewrite (take_rows_ok [] order thetas) by (intros n Hn; rewrite Hl; auto). cbn [bind w_rows w_cols].
    rewrite (take_rows_ok [] order rows) by auto. cbn [bind]. fold th' rw'. rewrite MM, E. cbn [bind]. rewrite V. cbn [bind].
    rewrite S', group_slices_map, map_map. reflexivity.
  - destruct Oinc as (O1 & O2 & O3). split; [exact O1|]. split; [exact O2|]. intros a b x y Ha Hb Hxy.
    rewrite <- !SC by (apply OR; eapply nth_error_In; eauto). eapply O3; eauto.
  - apply sorted_groups. rewrite (proj1 GS). revert Osort OR. clear -SC. intros Osort OR. induction Osort as [|x l S IH F]; constructor.
    + apply IH. intros; apply OR; now right.
    + rewrite Forall_forall in *. intros y Hy. rewrite <- !SC by (apply OR; cbn; auto). auto.
  - now rewrite map_length.
  - intros g G x HG Hx. rewrite nth_error_map, HG in Hx. cbn [option_map] in Hx. assert (x = fmean (map (fun n => flog (Some (likelihood p (nth n thetas []) (nth n rows [])))) G)) by congruence. subst x.
    unfold group_loglik. destruct G as [|a G]; [reflexivity|]. intros HP.
    rewrite flog_fmean by (congruence || exact HP). eexists. split; [reflexivity|]. field. apply not_0_INR. discriminate.
Qed.

(** ** Masked cells are NaN *)
Lemma scatter_none (m : list bool) (vals : list fl) (l : list fl) : length m = length l -> In true m -> Forall (fun x => x = None) l ->
  In None (mask_scatter (map negb m) vals l).
Proof.
  revert vals l. induction m as [|b m IH]; intros vals [|x l] Hl Hin HF; try discriminate; [contradiction|].
  cbn in Hl. inversion HF; subst. cbn [map mask_scatter]. destruct b; cbn [negb].
  - now left.
  - destruct Hin as [H|H]; [discriminate|]. destruct vals; right; apply IH; auto; lia.
Qed.
Lemma drop_masked_length {A} mask (l : list A) out : drop_masked mask l = Ok out -> length mask = length l.
Proof. unfold drop_masked. destruct (Nat.eqb_spec (length mask) (length l)); [auto|discriminate]. Qed.
Lemma scatter_opt_none mask n ll : length (concat mask) = n -> In true (concat mask) -> In None (scatter_opt (Some mask) n ll).
Proof. intros H1 H2. unfold scatter_opt. apply scatter_none; [now rewrite repeat_length|exact H2|]. apply Forall_forall. intros x Hx. now apply repeat_spec in Hx. Qed.
Lemma base_marks nanl M data output mask l : In true (concat mask) -> base_log_likelihood nanl M RNone data output (Some mask) = Ok (Cells l) -> In None l.
Proof.
  unfold base_log_likelihood. intros Hin H. cbv zeta in H. destruct (reshape _ _) as [rows|]; [|discriminate]. cbn [bind drop_opt] in H.
  destruct (drop_masked _ rows) as [rows'|]; [|discriminate]. cbn [bind] in H.
  destruct (drop_masked _ (map (to_long nanl) (concat data))) as [ts|] eqn:E; [|discriminate]. cbn [bind] in H.
  destruct (ce_rows rows' ts) as [ll|]; [|discriminate]. cbn [bind] in H.
  assert (l = scatter_opt (Some mask) (length (map (to_long nanl) (concat data))) ll) by congruence. subst l.
  apply scatter_opt_none; [now apply drop_masked_length in E|exact Hin].
Qed.
Lemma prob_marks nanl M data probs mask l : In true (concat mask) -> prob_log_likelihood nanl M RNone data probs (Some mask) = Ok (Cells l) -> In None l.
Proof.
  unfold prob_log_likelihood. intros Hin H. cbv zeta in H. destruct (reshape _ _) as [rows|]; [|discriminate]. cbn [bind drop_opt] in H.
  destruct (drop_masked _ rows) as [rows'|]; [|discriminate]. cbn [bind] in H.
  destruct (drop_masked _ (map (to_long nanl) (concat data))) as [ts|] eqn:E; [|discriminate]. cbn [bind] in H.
  destruct (prob_rows rows' ts) as [ll|]; [|discriminate]. cbn [bind] in H.
  assert (l = scatter_opt (Some mask) (length (map (to_long nanl) (concat data))) ll) by congruence. subst l.
  apply scatter_opt_none; [now apply drop_masked_length in E|exact Hin].
Qed.
Definition sub_marks (s : sub) : Prop := forall data out mask l, In true (concat mask) -> sb_ll s RNone data out (Some mask) = Ok (Cells l) -> In None l.
Lemma logit_marks nanl lv cats fwd : sub_marks (logit_sub nanl lv cats fwd).
Proof. intros data out mask l H1 H2. cbn in H2. eapply base_marks; eauto. Qed.
Lemma grm_marks nanl m : sub_marks (grm_sub nanl m).
Proof. intros data out mask l H1 H2. cbn in H2. eapply prob_marks; eauto. Qed.
Lemma thpl_marks nanl m : sub_marks (thpl_sub nanl m).
Proof. intros data out mask l H1 H2. cbn in H2. eapply prob_marks; eauto. Qed.
Lemma table_marks nanl lv cats fwd : sub_marks (table_sub nanl lv cats fwd).
Proof. intros data out mask l H1 H2. cbn in H2. destruct out; [discriminate|]. eapply prob_marks; eauto. Qed.
Lemma of_sub_marks s : sub_marks s -> marks_missing (of_sub s).
Proof.
  intros H data out mask l _ E (r & Hr & Ht). cbn in E. apply (H _ _ _ _) with (2 := E). apply in_concat. eauto.
Qed.
Lemma split_cols_true (subs : list sub) : forall (rows : list (list bool)),
  Forall (fun r => length r = list_sum (map sb_items subs)) rows -> (exists r, In r rows /\ In true r) ->
  exists s w, In w (split_cols (map sb_items subs) rows) /\ In true (concat (w_rows w)) /\
    exists k, nth_error subs k = Some s /\ nth_error (split_cols (map sb_items subs) rows) k = Some w.
Proof.
  induction subs as [|s subs IH]; intros rows HF (r & Hr & Ht).
  - rewrite Forall_forall in HF. specialize (HF r Hr). cbn in HF. destruct r; [contradiction|discriminate].
  - cbn [map split_cols]. change (list_sum (map sb_items (s :: subs))) with (sb_items s + list_sum (map sb_items subs))%nat in HF.
    rewrite <- (firstn_skipn (sb_items s) r) in Ht. apply in_app_or in Ht as [Ht|Ht].
    + exists s. eexists. split; [now left|]. split; [|exists O; split; reflexivity]. cbn [w_rows]. apply in_concat. eexists. split; [|exact Ht]. now apply in_map.
    + destruct (IH (map (skipn (sb_items s)) rows)) as (s' & w & H1 & H2 & k & H3 & H4).
      * rewrite Forall_map. eapply Forall_impl; [|exact HF]. intros a Ha. cbv beta in Ha. rewrite skipn_length. lia.
      * eexists. split; [|exact Ht]. now apply in_map.
      * exists s', w. split; [now right|]. split; [exact H2|]. exists (S k). auto.
Qed.
Lemma mapM_nth {A B} (f : A -> result B) l out : mapM f l = Ok out -> forall k a, nth_error l k = Some a -> exists b, f a = Ok b /\ nth_error out k = Some b.
Proof.
  revert out. induction l as [|x l IH]; intros out H k a Hk; [destruct k; discriminate|]. cbn in H.
  destruct (f x) as [y|] eqn:E; [|discriminate]. cbn in H. destruct (mapM f l) as [ys|] eqn:E2; [|discriminate]. cbn in H. assert (out = y :: ys) by congruence. subst.
  destruct k as [|k]; cbn in Hk; [assert (a = x) by congruence; subst; exists y; auto|]. apply (IH ys eq_refl k a Hk).
Qed.
Lemma mapM_len {A B} (f : A -> result B) l out : mapM f l = Ok out -> length out = length l.
Proof.
  revert out. induction l as [|x l IH]; intros out H; [cbn in H; now injection H as <-|]. cbn in H.
  destruct (f x) as [y|] eqn:E; [|discriminate]. cbn in H. destruct (mapM f l) as [ys|] eqn:E2; [|discriminate]. cbn in H. assert (out = y :: ys) by congruence. subst.
  cbn. f_equal. now apply IH.
Qed.
Lemma split_cols_length {A} sizes : forall rows : list (list A), length (split_cols sizes rows) = length sizes.
Proof. induction sizes as [|s ss IH]; intros rows; [reflexivity|]. cbn. now rewrite IH. Qed.
Lemma mix_marks lv subs : Forall sub_marks subs -> marks_missing (of_mix lv subs).
Proof.
  intros HS data out mask l HR E HT. cbn [of_mix em_ll] in E. unfold mix_log_likelihood in E.
  destruct (split_tensor _ out) as [outs|] eqn:E1; [|discriminate]. cbn [bind] in E.
  destruct (split2 _ data) as [datas|] eqn:E2; [|discriminate]. cbn [bind] in E.
  unfold split_mask in E. destruct (split2 _ mask) as [masks|] eqn:E3; [|discriminate]. cbn [bind rmap] in E.
  destruct (mapM _ _) as [lls|] eqn:E4; [|discriminate]. cbn [bind] in E.
  destruct (mapM cells_of lls) as [ls|] eqn:E5; [|discriminate]. cbn [bind] in E. assert (l = concat ls) by congruence. subst l. clear E.
  unfold split2 in E3. destruct (Nat.eqb_spec (list_sum (map sb_items subs)) (w_cols mask)) as [Em|]; [|discriminate].
  assert (masks = split_cols (map sb_items subs) (w_rows mask)) by congruence. subst masks. clear E3.
  destruct (split_cols_true subs (w_rows mask)) as (s & w & _ & Hw & k & K1 & K2); [now rewrite Em|exact HT|].
  assert (Lk : (k < length subs)%nat) by (apply nth_error_Some; congruence).
  assert (Ld : length datas = length subs).
  { unfold split2 in E2. destruct (_ =? _)%nat; [|discriminate]. assert (datas = split_cols (map sb_items subs) (w_rows data)) by congruence. subst. now rewrite split_cols_length, map_length. }
  assert (Lo : length outs = length subs).
  { unfold split_tensor in E1. destruct out as [w'|c]; unfold split2, rmap in E1; (destruct (_ =? _)%nat; [|discriminate]); cbn [bind] in E1.
    - assert (outs = map T2 (split_cols (mix_sizes subs) (w_rows w'))) by congruence. subst. unfold mix_sizes. now rewrite map_length, split_cols_length, map_length.
    - cbn [w_rows] in E1. match type of E1 with Ok ?z = _ => assert (outs = z) by congruence end. subst. unfold mix_sizes. now rewrite map_length, split_cols_length, map_length. }
  destruct (nth_error datas k) as [d|] eqn:Kd; [|apply nth_error_None in Kd; lia].
  destruct (nth_error outs k) as [o|] eqn:Ko; [|apply nth_error_None in Ko; lia].
  assert (NC : nth_error (combine (combine (combine subs datas) (map (fun w => Some (w_rows w)) (split_cols (map sb_items subs) (w_rows mask)))) outs) k
               = Some (s, d, Some (w_rows w), o)).
  { assert (CC : forall (A B : Type) (x : list A) (y : list B) q a b, nth_error x q = Some a -> nth_error y q = Some b -> nth_error (combine x y) q = Some (a, b)).
    { intros A B x. induction x as [|u x IH]; intros [|v y] [|q] a b Ha Hb; try discriminate; cbn in *; [congruence|]. now apply IH. }
    apply CC; [|exact Ko]. apply CC; [|now rewrite nth_error_map, K2]. now apply CC. }
  destruct (mapM_nth _ _ _ E4 k _ NC) as (b & Hb & Kb). destruct (mapM_nth _ _ _ E5 k b Kb) as (c & Hc & Kc).
  destruct b as [sc|cl]; [discriminate Hc|]. cbn in Hc. assert (cl = c) by congruence. subst cl.
  rewrite Forall_forall in HS. pose proof (HS s (nth_error_In _ _ K1) _ _ _ _ Hw Hb) as N. apply in_concat. exists c. split; [apply (nth_error_In _ _ Kc)|exact N].
Qed.
