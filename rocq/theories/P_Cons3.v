(** Consistency. *)
From Verif Require Import Base BaseFacts RBase RFacts M_Data M_Logit M_Lik M_Est P_Logit P_Logit2 P_Logit3 P_Est1 P_Est2 P_Opt3 P_Max1 S_Logit S_Lik S_Est S_Item S_Ex S_True S_Cons P_True1 P_True2 P_True3 P_Cons1 P_Cons2 T_Ex.
Import List.
Local Open Scope R_scope.

Lemma common_gap {A} (l : list A) (gap : A -> R) : (forall x, In x l -> 0 < gap x) -> exists d, 0 < d /\ forall x, In x l -> d <= gap x.
Proof.
  induction l as [|y l IH]; intro H; [exists 1; split; [lra|intros x []]|]. destruct IH as (d & Hd & Hl); [intros; apply H; now right|]. exists (Rmin d (gap y)). split; [apply Rmin_glb_lt; [exact Hd|apply H; now left]|].
  intros x [<-|Hx]; [apply Rmin_r|eapply Rle_trans; [apply Rmin_l|now apply Hl]].
Qed.
Lemma over_abs {A} (l : list A) f : Rabs (over l f) <= over l (fun x => Rabs (f x)).
Proof. unfold over. induction l as [|x l IH]; cbn [map rsum]; [rewrite Rabs_R0; lra|]. eapply Rle_trans; [apply Rabs_triang|]. lra. Qed.
Section Truth.
  Variables (m : emodel) (p : list R -> nat -> nat -> R) (points : list (list R)) (weights : list R) (s : list bool).
  Hypothesis Hm : library_model m p.
  Hypothesis HR : rule (em_lv m) points weights.
  Hypothesis HS : length s = length (em_cats m).
  Let rows := possible_rows (em_cats m) s.
  Let q := fun row => marginal_likelihood p points weights row / rsum weights.
  Definition loss_on (m : emodel) (points : list (list R)) (weights : list R) (data : list (list cell)) : result fl :=
    mml_loss m points (map (fun w => Some (Fin (ln w))) weights) (Wide (length (em_cats m)) data).
  Lemma q_pos row : In row rows -> 0 < q row.
  Proof. intro Hr. apply Rdiv_lt_0_compat; [|exact (rule_total _ _ _ HR)]. apply (marginal_positive m); auto. now apply (rows_legal _ s). Qed.
  Lemma q_total : over rows q = 1.
  Proof. now apply share_total. Qed.
  (** One choice of how near the shares must be serves all fits. *)
  Lemma near_all eps : 0 < eps -> exists eta, 0 < eta /\ forall eta', 0 < eta' <= eta -> forall data, data <> [] -> Forall (fun row => In row rows) data -> (forall x, In x rows -> Rabs (INR (times data x) / INR (length data) - q x) < eta') ->
    (forall x, In x rows -> In x data) /\
    forall m' p' points' weights', library_model m' p' -> em_cats m' = em_cats m -> rule (em_lv m') points' weights' -> rsum weights' = rsum weights ->
      not_worse (loss_on m' points' weights' data) (loss_on m points weights data) ->
      forall row, In row rows -> Rabs (marginal_likelihood p' points' weights' row / rsum weights' - q row) < eps.
  Proof.
    intro He. set (C := over rows (fun row => / q row)). pose proof (sqrt_pos C) as PC. destruct (common_gap rows q q_pos) as (d & Hd & Hl). set (c := eps / (2 * (1 + 2 * sqrt C))). assert (Hc : 0 < c) by (apply Rdiv_lt_0_compat; lra).
    exists (Rmin d c). split; [now apply Rmin_glb_lt|]. intros eta' [He0 He1] data HD HF HN. assert (B1 : eta' <= d) by (eapply Rle_trans; [exact He1|apply Rmin_l]). assert (B2 : eta' <= c) by (eapply Rle_trans; [exact He1|apply Rmin_r]). split.
    - intros x Hx. specialize (HN x Hx). specialize (Hl x Hx). destruct (times data x) as [|t] eqn:Et; [exfalso; cbn [INR] in HN; unfold Rdiv in HN; rewrite Rmult_0_l, Rminus_0_l, Rabs_Ropp, Rabs_pos_eq in HN by (pose proof (q_pos x Hx); lra); lra|]. apply (count_occ_In (list_eq_dec cell_dec)). unfold times in Et. lia.
    - intros m' p' points' weights' Hm' EC HR' EW HB row Hrow. rewrite EW.
      apply Rle_lt_trans with (eta' * (1 + 2 * sqrt C)); [exact (close_fit m p points weights m' p' points' weights' s data eta' Hm Hm' EC HR HR' EW HS HD HF (Rlt_le _ _ He0) (fun x Hx => Rlt_le _ _ (HN x Hx)) HB row Hrow)|].
      apply Rle_lt_trans with (c * (1 + 2 * sqrt C)); [apply Rmult_le_compat_r; lra|]. replace (c * (1 + 2 * sqrt C)) with (eps / 2) by (unfold c; field; lra). lra.
  Qed.
  Lemma consistent eps : 0 < eps -> eventually (em_cats m) s q (fun data => forall m' p' points' weights', library_model m' p' -> em_cats m' = em_cats m -> rule (em_lv m') points' weights' -> rsum weights' = rsum weights ->
      not_worse (loss_on m' points' weights' data) (loss_on m points weights data) -> forall row, In row rows -> Rabs (marginal_likelihood p' points' weights' row / rsum weights' - q row) < eps).
  Proof.
    intro He. destruct (near_all eps He) as (eta & He1 & H). apply (eventually_near _ _ _ eta); [exact HS|intros; now apply Rlt_le, q_pos|exact q_total|exact He1|]. intros data HD HF HN. exact (proj2 (H eta (conj He1 (Rle_refl _)) data HD HF HN)).
  Qed.
End Truth.

(** ** One-parameter model *)
Section Rasch.
  Variables (nanl : Z) (items : nat) (b : list R) (points : list (list R)) (weights : list R) (s : list bool).
  Hypothesis HI : (0 < items)%nat.
  Hypothesis Lb : length b = items.
  Hypothesis HR : rule 1 points weights.
  Hypothesis HS : length s = items.
  Let F := opl_family nanl items.
  Let cats := repeat 2%nat items.
  Let W := rsum weights.
  (** Share of right answers to an item with intercept [c]. *)
  Let right c := sumn (length points) (fun k => nth k weights 0 * logistic (nth 0 (nth k points []) 0 + c)).
  Lemma opl_library v : length v = items -> library_model (f_model F v) (f_p F v).
  Proof. intro Lv. apply lib_opl; [exact Lv|exact HI]. Qed.
  Lemma right_incr c c' : c < c' -> right c < right c'.
  Proof.
    intro Hc. destruct HR as (L0 & L1 & _ & L3). assert (T : forall k, (k < length points)%nat -> nth k weights 0 * logistic (nth 0 (nth k points []) 0 + c) < nth k weights 0 * logistic (nth 0 (nth k points []) 0 + c')).
    { intros k Hk. apply Rmult_lt_compat_l; [rewrite Forall_forall in L3; apply L3, nth_In; lia|]. apply logistic_incr. lra. }
    apply sumn_lt; [intros k Hk; left; now apply T|]. exists 0%nat. split; [destruct points; [congruence|cbn; lia]|apply T; destruct points; [congruence|cbn; lia]].
  Qed.
  Lemma right_row v i : length v = items -> nth i s false = true -> over (possible_rows cats s) (fun row => if chose i 1 row then marginal_likelihood (f_p F v) points weights row else 0) = right (nth i v 0).
  Proof.
    intros Lv Hi. assert (LI : (i < items)%nat) by (destruct (Nat.lt_ge_cases i items); [assumption|]; rewrite nth_overflow in Hi by lia; discriminate). assert (HK : (1 < nth i cats O)%nat) by (unfold cats; rewrite (nth_error_nth _ _ O (nth_error_repeat_lt 2%nat items i LI)); lia).
    exact (marginal_item (f_model F v) (f_p F v) points weights s i 1 (opl_library v Lv) HR ltac:(cbn; now rewrite repeat_length) Hi HK).
  Qed.
  Lemma used_all data : Forall (fun row => In row (possible_rows cats s)) data -> (forall x, In x (possible_rows cats s) -> In x data) -> forall i k, (i < items)%nat -> (k < 2)%nat -> ~ unused data i k.
  Proof.
    intros HF HA i k Hi Hk [(r & j & Hr & Ea) HU]. assert (Hs : nth i s false = true). { rewrite Forall_forall in HF. apply (rows_seen cats s (nth r data []) i j); [apply HF, nth_In, Hr|unfold cats; now rewrite repeat_length|exact Ea]. }
    assert (HK : (k < nth i cats O)%nat) by (unfold cats; rewrite (nth_error_nth _ _ O (nth_error_repeat_lt 2%nat items i Hi)); lia).
    pose proof (rows_item cats s (f_p F b [0]) i k ltac:(unfold cats; now rewrite repeat_length) (library_total _ _ (opl_library b Lb) [0]) Hs HK) as E.
    assert (X : exists row, In row (possible_rows cats s) /\ chose i k row = true).
    { destruct (existsb (chose i k) (possible_rows cats s)) eqn:EE; [apply existsb_exists in EE as (row & ? & ?); now exists row|]. exfalso. assert (Z : over (possible_rows cats s) (fun row => if chose i k row then row_product (f_p F b [0]) row else 0) = 0).
      { rewrite (over_ext _ _ (fun row => 0 * 0)); [rewrite over_scal; ring|]. intros row Hrow. destruct (chose i k row) eqn:Ec; [|ring]. assert (existsb (chose i k) (possible_rows cats s) = true) by (apply existsb_exists; now exists row). congruence. }
      pose proof (library_pos _ _ (opl_library b Lb) [0] i k HK). lra. }
    destruct X as (row & Hrow & Hc). apply HA in Hrow. apply (In_nth _ _ []) in Hrow as (r' & Hr' & E'). apply (HU r' Hr'). unfold chose in Hc. rewrite <- E' in Hc. destruct (answer (nth i (nth r' data []) None)) as [j'|]; [|discriminate]. apply Nat.eqb_eq in Hc. now subst.
  Qed.
  Lemma rasch_consistent eps : 0 < eps ->
    eventually cats s (fun row => marginal_likelihood (f_p F b) points weights row / W)
      (fun data => let loss := fun m => mml_loss m points (map (fun w => Some (Fin (ln w))) weights) (Wide items data) in
         (exists v, length v = items /\ lowest_loss F loss v) /\
         forall v, length v = items -> lowest_loss F loss v -> forall i, nth i s false = true -> Rabs (nth i v 0 - nth i b 0) < eps).
  Proof.
    intro He. set (K := INR (length (possible_rows cats s))). set (gap := fun i => Rmin (right (nth i b 0 + eps) - right (nth i b 0)) (right (nth i b 0) - right (nth i b 0 - eps))).
    destruct (common_gap (seq 0 items) gap) as (d & Hd & Hl). { intros i _. apply Rmin_glb_lt; [pose proof (right_incr (nth i b 0) (nth i b 0 + eps) ltac:(lra)); lra|pose proof (right_incr (nth i b 0 - eps) (nth i b 0) ltac:(lra)); lra]. }
    pose proof (rule_total _ _ _ HR) as HW. fold W in HW. assert (HK : 0 <= K) by apply pos_INR. set (e := d / ((K + 1) * W)). assert (He' : 0 < e) by (apply Rdiv_lt_0_compat; [exact Hd|apply Rmult_lt_0_compat; lra]).
    assert (SL : length s = length (em_cats (f_model F b))) by (cbn; now rewrite repeat_length).
    destruct (near_all (f_model F b) (f_p F b) points weights s (opl_library b Lb) HR SL e He') as (eta & He1 & H). apply (eventually_near _ _ _ eta); [unfold cats; now rewrite repeat_length|intros row Hrow; now apply Rlt_le, (q_pos (f_model F b) (f_p F b) points weights s (opl_library b Lb) HR SL)|exact (q_total (f_model F b) (f_p F b) points weights s (opl_library b Lb) HR SL)|exact He1|].
    intros data HD HF HN loss. destruct (H eta (conj He1 (Rle_refl _)) data HD HF HN) as [HA HB]. assert (LD : legal_data cats data) by (apply Forall_forall; intros row Hr; rewrite Forall_forall in HF; apply (rows_legal _ s); [unfold cats; now rewrite repeat_length|auto]).
    split; [destruct HR as (R0 & R1 & R2 & R3); apply (C119_rasch nanl items data points weights HI LD R0 R1 R2 R3); intros i k Hi Hk; now apply used_all|].
    intros v Lv HV i Hi. assert (LI : (i < items)%nat) by (destruct (Nat.lt_ge_cases i items); [assumption|]; rewrite nth_overflow in Hi by lia; discriminate).
    assert (NW : not_worse (loss_on (f_model F v) points weights data) (loss_on (f_model F b) points weights data)).
    { destruct HV as (x & EX & HX). destruct (HX b Lb) as (y & EY & Hy). exists x, y. unfold loss_on, F. change (em_cats (f_model (opl_family nanl items) v)) with (repeat 2%nat items). change (em_cats (f_model (opl_family nanl items) b)) with (repeat 2%nat items). rewrite repeat_length. split; [exact EX|]. now split. }
    specialize (HB (f_model F v) (f_p F v) points weights (opl_library v Lv) eq_refl HR eq_refl NW).
    assert (Q : Rabs (right (nth i v 0) - right (nth i b 0)) < d).
    { rewrite <- (right_row v i Lv Hi), <- (right_row b i Lb Hi), <- over_minus. apply Rle_lt_trans with (over (possible_rows cats s) (fun _ => e * W)).
      - eapply Rle_trans; [|apply (over_le (possible_rows cats s) (fun row => Rabs ((if chose i 1 row then marginal_likelihood (f_p F v) points weights row else 0) - (if chose i 1 row then marginal_likelihood (f_p F b) points weights row else 0))))].
        + apply over_abs.
        + intros row Hrow. destruct (chose i 1 row); [|rewrite Rminus_0_r, Rabs_R0; apply Rmult_le_pos; lra]. specialize (HB row Hrow). fold W in HB. replace (marginal_likelihood (f_p F v) points weights row - marginal_likelihood (f_p F b) points weights row) with ((marginal_likelihood (f_p F v) points weights row / W - marginal_likelihood (f_p F b) points weights row / W) * W) by (field; lra). rewrite Rabs_mult, (Rabs_pos_eq W) by lra. apply Rmult_le_compat_r; lra.
      - rewrite over_const. fold K. unfold e. replace (K * (d / ((K + 1) * W) * W)) with (d * (K / (K + 1))) by (field; lra). rewrite <- (Rmult_1_r d) at 2. apply Rmult_lt_compat_l; [exact Hd|]. apply (Rmult_lt_reg_r (K + 1)); [lra|]. replace (K / (K + 1) * (K + 1)) with K by (field; lra). lra. }
    specialize (Hl i ltac:(apply in_seq; lia)). unfold gap in Hl. pose proof (Rmin_l (right (nth i b 0 + eps) - right (nth i b 0)) (right (nth i b 0) - right (nth i b 0 - eps))) as M1. pose proof (Rmin_r (right (nth i b 0 + eps) - right (nth i b 0)) (right (nth i b 0) - right (nth i b 0 - eps))) as M2. apply Rabs_def2 in Q as [Q1 Q2].
    assert (MI : forall c c', right c < right c' -> c < c') by (intros c c' Hc; destruct (Rtotal_order c c') as [|[->|G]]; [assumption|lra|apply right_incr in G; lra]).
    apply Rabs_def1; [assert (nth i v 0 < nth i b 0 + eps) by (apply MI; lra)|assert (nth i b 0 - eps < nth i v 0) by (apply MI; lra)]; lra.
  Qed.
End Rasch.
