(** Lemmas: the concrete scales. *)
From Verif Require Import Base BaseFacts RBase RFacts M_Logit M_Mono M_Lik M_Est M_Scale S_Scale P_Mono1 P_Scale1 P_Scale2.
Local Open Scope R_scope.

(** ** Reverse *)
Lemma reverse_signs_length flags : length (reverse_signs flags) = length flags.
Proof. unfold reverse_signs; rewrite !map_length; reflexivity. Qed.
Lemma reverse_signs_map flags : reverse_signs flags = map (fun b : bool => if b then -1 else 1) flags.
Proof.
  unfold reverse_signs. rewrite map_map. apply map_ext. intros [|].
  - destruct (Req_EM_T (-(1)) 0); lra.
  - destruct (Req_EM_T (-0) 0); lra.
Qed.
Lemma nth_reverse_signs flags i : (i < length flags)%nat -> nth i (reverse_signs flags) 0 = if nth i flags false then -1 else 1.
Proof.
  intros H. rewrite reverse_signs_map. set (f := fun b : bool => if b then -1 else 1).
  rewrite (nth_indep _ 0 (f false)) by (rewrite map_length; lia). rewrite map_nth. reflexivity.
Qed.
Definition reverse_row (flags : list bool) (t : list R) : list R := zip_with (fun s x => x * s) (reverse_signs flags) t.
Lemma reverse_row_length n flags t : length flags = n -> length t = n -> length (reverse_row flags t) = n.
Proof. intros H1 H2. unfold reverse_row. rewrite zip_with_length, reverse_signs_length. lia. Qed.
Lemma nth_reverse_row n flags t i : length flags = n -> length t = n -> (i < n)%nat ->
  nth i (reverse_row flags t) 0 = nth i t 0 * (if nth i flags false then -1 else 1).
Proof.
  intros H1 H2 Hi. unfold reverse_row. rewrite (nth_zip_with _ _ _ _ 0 0) by (rewrite ?reverse_signs_length; lia).
  f_equal. apply nth_reverse_signs; lia.
Qed.
Lemma scale_rows_width signs thetas : Forall (width (length signs)) thetas ->
  scale_rows signs thetas = Ok (map (zip_with (fun s x => x * s) signs) thetas).
Proof.
  intros H. unfold scale_rows. replace (forallb _ thetas) with true; [reflexivity|]. symmetry.
  apply forallb_forall. intros t Ht. rewrite Forall_forall in H. apply Nat.eqb_eq; auto.
Qed.
Lemma reverse_acts n flags : length flags = n -> acts_as n (reverse_scale flags) (reverse_row flags).
Proof.
  intros H. split; [intros; apply (reverse_row_length n); assumption|]. intros thetas Ht. apply scale_rows_width.
  rewrite reverse_signs_length, H; assumption.
Qed.
Lemma reverse_involution n flags t : length flags = n -> length t = n -> reverse_row flags (reverse_row flags t) = t.
Proof.
  intros H Ht. pose proof (reverse_row_length n flags t H Ht).
  apply (vec_ext n); auto using reverse_row_length. intros i Hi.
  rewrite !(nth_reverse_row n) by assumption. destruct (nth i flags false); lra.
Qed.
Lemma reverse_undone n flags : length flags = n -> undone_by n (reverse_scale flags) (reverse_row flags) (reverse_row flags).
Proof.
  intros H. split; [apply reverse_acts; assumption|]. split; [intros; apply (reverse_row_length n); assumption|].
  split; [intros thetas Ht; apply (reverse_acts n flags H); assumption|].
  split; intros; apply (reverse_involution n); assumption.
Qed.
Lemma derivable_scal_lin c x : derivable_pt_lim (fun v => v * c) x c.
Proof.
  intros eps He. exists (mkposreal 1 Rlt_0_1). intros h Hh _.
  replace (((x + h) * c - x * c) / h - c) with 0 by (field; assumption). rewrite Rabs_R0; assumption.
Qed.
Lemma reverse_derivative n flags : length flags = n -> reports_derivative n (reverse_scale flags) (reverse_row flags).
Proof.
  intros H thetas Ht. eexists. split; [reflexivity|]. apply Forall2_repeat_l.
  eapply Forall_impl; [|exact Ht]. intros t Hw.
  apply (jacobian_coordinatewise n (fun i x => x * (if nth i flags false then -1 else 1))).
  - assumption.
  - rewrite reverse_signs_length; assumption.
  - intros; apply (reverse_row_length n); assumption.
  - intros; apply (nth_reverse_row n); assumption.
  - intros i Hi. rewrite nth_reverse_signs by lia. apply derivable_scal_lin.
Qed.
Lemma reverse_commute n f1 f2 : length f1 = n -> length f2 = n -> commute n (reverse_row f1) (reverse_row f2).
Proof.
  intros H1 H2 t Ht. pose proof (reverse_row_length n f1 t H1 Ht). pose proof (reverse_row_length n f2 t H2 Ht).
  apply (vec_ext n); auto using reverse_row_length. intros i Hi. rewrite !(nth_reverse_row n) by assumption.
  destruct (nth i f1 false), (nth i f2 false); lra.
Qed.
Lemma reverses_round_trip n flagss : Forall (fun flags => length flags = n) flagss -> round_trip n (map reverse_scale flagss).
Proof.
  intros H. apply (round_trip_commuting n _ (map (fun fl => (reverse_row fl, reverse_row fl)) flagss)).
  - induction H; cbn; constructor; auto. apply reverse_undone; assumption.
  - rewrite map_map; cbn. induction H as [|fl l Hfl H IH]; cbn; constructor; auto.
    rewrite Forall_map. eapply Forall_impl; [|exact H]. intros; apply reverse_commute; assumption.
Qed.

(** ** Rotate *)
Lemma square_matrix n A : square n A = true -> is_matrix n n A.
Proof.
  unfold square. rewrite andb_true_iff, Nat.eqb_eq. intros [H1 H2]. split; [assumption|].
  rewrite forallb_forall in H2. apply Forall_forall; intros r Hr. apply Nat.eqb_eq; auto.
Qed.
Lemma transpose_matrix n A : (0 < n)%nat -> is_matrix n n A -> is_matrix n n (transpose A).
Proof.
  intros Hn HA. unfold transpose. rewrite (ncols_matrix n n) by assumption. split; [rewrite map_length, seq_length; reflexivity|].
  apply Forall_forall; intros r Hr. apply in_map_iff in Hr as (j & <- & _). rewrite column_length. apply HA.
Qed.
Lemma nth_transpose n A i j : is_matrix n n A -> (i < n)%nat -> (j < n)%nat ->
  nth j (nth i (transpose A) []) 0 = nth i (nth j A []) 0.
Proof.
  intros HA Hi Hj. unfold transpose. rewrite nth_map_seq by (rewrite (ncols_matrix n n); auto; lia).
  apply nth_column. destruct HA; lia.
Qed.
Lemma vecmat_transpose n A t : (0 < n)%nat -> is_matrix n n A -> length t = n -> vecmat t A = mvec (transpose A) t.
Proof.
  intros Hn HA Ht. pose proof (transpose_matrix n A Hn HA) as HT.
  apply (vec_ext n); [rewrite vecmat_length; apply (ncols_matrix n n); assumption|rewrite mvec_length; apply HT|].
  intros j Hj. rewrite (nth_vecmat n n), (nth_mvec n n) by assumption. apply sumn_ext; intros k Hk.
  rewrite (nth_transpose n) by assumption. ring.
Qed.
Lemma vecmat_width n A t : (0 < n)%nat -> is_matrix n n A -> length (vecmat t A) = n.
Proof. intros Hn HA. rewrite vecmat_length. apply (ncols_matrix n n); assumption. Qed.
Lemma vecmat_inverse n A B t : (0 < n)%nat -> is_matrix n n A -> is_matrix n n B -> length t = n ->
  (forall i j, (i < n)%nat -> (j < n)%nat ->
     sumn n (fun k => nth k (nth i A []) 0 * nth j (nth k B []) 0) = if (i =? j)%nat then 1 else 0) ->
  vecmat (vecmat t A) B = t.
Proof.
  intros Hn HA HB Ht HI. apply (vec_ext n); [apply vecmat_width; assumption|assumption|]. intros j Hj.
  rewrite (nth_vecmat n n) by (auto using vecmat_width).
  transitivity (sumn n (fun i => sumn n (fun k => nth i t 0 * (nth k (nth i A []) 0 * nth j (nth k B []) 0)))).
  { rewrite sumn_swap. apply sumn_ext; intros k Hk. rewrite (nth_vecmat n n) by assumption.
    rewrite <- sumn_scal_r. apply sumn_ext; intros; ring. }
  rewrite (sumn_ext n _ (fun i => nth i t 0 * (if (i =? j)%nat then 1 else 0))).
  - rewrite (sumn_single n j); [rewrite Nat.eqb_refl; ring|assumption|].
    intros k Hk Hne. rewrite (proj2 (Nat.eqb_neq k j) Hne). ring.
  - intros i Hi. rewrite sumn_scal, HI by assumption. reflexivity.
Qed.
Lemma rotate_rows_width n A thetas : length A = n -> Forall (width n) thetas ->
  rotate_rows A thetas = Ok (map (fun t => vecmat t A) thetas).
Proof.
  intros HA H. unfold rotate_rows. replace (forallb _ thetas) with true; [reflexivity|]. symmetry.
  apply forallb_forall. intros t Ht. rewrite Forall_forall in H. apply Nat.eqb_eq. rewrite HA; auto.
Qed.
Lemma rotate_undone n A B : (0 < n)%nat -> inverse_matrix n A B ->
  undone_by n (rotate_scale A B) (fun t => vecmat t A) (fun t => vecmat t B).
Proof.
  intros Hn (HA & HB & H1 & H2). split; [split|split; [|split; [|split]]].
  - intros; apply vecmat_width; assumption.
  - intros; apply (rotate_rows_width n); [apply HA|assumption].
  - intros; apply vecmat_width; assumption.
  - intros; apply (rotate_rows_width n); [apply HB|assumption].
  - intros; apply (vecmat_inverse n); assumption.
  - intros; apply (vecmat_inverse n); assumption.
Qed.
Lemma rotate_derivative n A B : (0 < n)%nat -> is_matrix n n A ->
  reports_derivative n (rotate_scale A B) (fun t => vecmat t A).
Proof.
  intros Hn HA thetas Ht. eexists. split; [reflexivity|]. apply Forall2_repeat_l.
  eapply Forall_impl; [|exact Ht]. intros t Hw. apply jacobian_linear; [assumption|apply transpose_matrix; assumption|].
  intros; apply (vecmat_transpose n); assumption.
Qed.

(** ** Flow *)
Lemma flow_row_length n means stds fs t : length means = n -> length stds = n -> length fs = n -> length t = n ->
  length (flow_row means stds fs t) = n.
Proof. intros. unfold flow_row. rewrite !zip_with_length. lia. Qed.
Lemma nth_flow_row n means stds fs t i : length means = n -> length stds = n -> length fs = n -> length t = n -> (i < n)%nat ->
  nth i (flow_row means stds fs t) 0 = nth i fs (fun x => x) ((nth i t 0 - nth i means 0) / nth i stds 0).
Proof.
  intros. unfold flow_row.
  rewrite (nth_zip_with (fun (f : R -> R) x => f x) _ _ _ (fun x => x) 0) by (rewrite ?zip_with_length; lia).
  rewrite (nth_zip_with Rdiv _ _ _ 0 0) by (rewrite ?zip_with_length; lia).
  rewrite (nth_zip_with Rminus _ _ _ 0 0) by lia. reflexivity.
Qed.
Lemma flow_inverse_length n means stds gs t : length means = n -> length stds = n -> length gs = n -> length t = n ->
  length (flow_inverse_row means stds gs t) = n.
Proof. intros. unfold flow_inverse_row. rewrite !zip_with_length. lia. Qed.
Lemma nth_flow_inverse n means stds gs t i : length means = n -> length stds = n -> length gs = n -> length t = n -> (i < n)%nat ->
  nth i (flow_inverse_row means stds gs t) 0 = nth i gs (fun x => x) (nth i t 0) * nth i stds 0 + nth i means 0.
Proof.
  intros. unfold flow_inverse_row.
  rewrite (nth_zip_with Rplus _ _ _ 0 0) by (rewrite ?zip_with_length; lia).
  rewrite (nth_zip_with Rmult _ _ _ 0 0) by (rewrite ?zip_with_length; lia).
  rewrite (nth_zip_with (fun (f : R -> R) x => f x) _ _ _ (fun x => x) 0) by lia. reflexivity.
Qed.
Lemma flow_undone n grad means stds fs gs : length means = n -> length stds = n -> length fs = n -> length gs = n ->
  (forall i, (i < n)%nat -> nth i stds 0 <> 0) ->
  (forall i x, (i < n)%nat -> nth i gs (fun x => x) (nth i fs (fun x => x) x) = x) ->
  (forall i x, (i < n)%nat -> nth i fs (fun x => x) (nth i gs (fun x => x) x) = x) ->
  undone_by n (flow_scale grad means stds (Some (fs, gs))) (flow_row means stds fs) (flow_inverse_row means stds gs).
Proof.
  intros H1 H2 H3 H4 Hs Hgf Hfg. split; [split|split; [|split; [|split]]].
  - intros; apply flow_row_length; assumption.
  - reflexivity.
  - intros; apply flow_inverse_length; assumption.
  - reflexivity.
  - intros t Ht. pose proof (flow_row_length n means stds fs t H1 H2 H3 Ht).
    apply (vec_ext n); auto using flow_inverse_length. intros i Hi. rewrite (nth_flow_inverse n) by assumption.
    rewrite (nth_flow_row n) by assumption. rewrite Hgf by assumption. field. auto.
  - intros t Ht. pose proof (flow_inverse_length n means stds gs t H1 H2 H4 Ht).
    apply (vec_ext n); auto using flow_row_length. intros i Hi. rewrite (nth_flow_row n) by assumption.
    rewrite (nth_flow_inverse n) by assumption.
    replace ((nth i gs (fun x => x) (nth i t 0) * nth i stds 0 + nth i means 0 - nth i means 0) / nth i stds 0)
      with (nth i gs (fun x => x) (nth i t 0)) by (field; auto). apply Hfg; assumption.
Qed.
(** The derivative of a sum in which only one term moves. *)
Lemma sum_gradient_coordinatewise n grad (fs : nat -> R -> R) f t l :
  autograd_exact grad -> length t = n -> length l = n ->
  (forall y, length y = n -> length (f y) = n) ->
  (forall y i, length y = n -> (i < n)%nat -> nth i (f y) 0 = fs i (nth i y 0)) ->
  (forall i, (i < n)%nat -> derivable_pt_lim (fs i) (nth i t 0) (nth i l 0)) ->
  sum_gradient grad f t = l.
Proof.
  intros HG Ht Hl Hf Hfs Hd. unfold sum_gradient. apply (vec_ext n); [rewrite map_length, seq_length; assumption|assumption|].
  intros d Hd'. rewrite nth_map_seq by lia. apply HG.
  assert (E : forall x, rsum (f (upd d x t)) = sumn n (fun i => if (i =? d)%nat then fs d x else fs i (nth i t 0))).
  { intros x. rewrite rsum_nth, Hf by (rewrite upd_length; assumption). apply sumn_ext; intros i Hi.
    rewrite Hfs by (rewrite ?upd_length; assumption). rewrite nth_upd by lia.
    destruct (Nat.eqb_spec i d) as [->|]; reflexivity. }
  intros eps He. destruct (Hd d Hd' eps He) as (delta & B). exists delta. intros h Hh0 Hh.
  rewrite !E. rewrite <- sumn_minus. rewrite (sumn_single n d).
  - rewrite Nat.eqb_refl. apply B; assumption.
  - assumption.
  - intros k Hk Hne. rewrite (proj2 (Nat.eqb_neq k d) Hne). ring.
Qed.
Lemma derivable_affine f a b x l : b <> 0 -> derivable_pt_lim f ((x - a) / b) l ->
  derivable_pt_lim (fun v => f ((v - a) / b)) x (l / b).
Proof.
  intros Hb H. assert (D : derivable_pt_lim (fun v => (v - a) / b) x (/ b)).
  { intros eps He. exists (mkposreal 1 Rlt_0_1). intros h Hh _.
    replace (((x + h - a) / b - (x - a) / b) / h - / b) with 0 by (field; auto). rewrite Rabs_R0; assumption. }
  exact (derivable_pt_lim_comp (fun v => (v - a) / b) f x (/ b) l D H).
Qed.
Lemma flow_jacobian n grad means stds fs gs t ls : autograd_exact grad ->
  length means = n -> length stds = n -> length fs = n -> length t = n -> length ls = n ->
  (forall i, (i < n)%nat -> nth i stds 0 <> 0) ->
  (forall i, (i < n)%nat -> derivable_pt_lim (nth i fs (fun x => x)) ((nth i t 0 - nth i means 0) / nth i stds 0) (nth i ls 0)) ->
  sc_jacobian (flow_scale grad means stds (Some (fs, gs))) [t] = Ok [diag (zip_with Rdiv ls stds)] /\
  is_jacobian n n (flow_row means stds fs) t (diag (zip_with Rdiv ls stds)).
Proof.
  intros HG H1 H2 H3 Ht H4 Hs Hd.
  assert (L : length (zip_with Rdiv ls stds) = n) by (rewrite zip_with_length; lia).
  assert (D : forall i, (i < n)%nat -> derivable_pt_lim (fun x => nth i fs (fun x => x) ((x - nth i means 0) / nth i stds 0)) (nth i t 0)
                (nth i (zip_with Rdiv ls stds) 0)).
  { intros i Hi. rewrite (nth_zip_with Rdiv _ _ _ 0 0) by lia. apply derivable_affine; auto. }
  split.
  - cbn. f_equal. f_equal. f_equal.
    apply (sum_gradient_coordinatewise n grad (fun i x => nth i fs (fun x => x) ((x - nth i means 0) / nth i stds 0))); auto.
    + intros; apply flow_row_length; assumption.
    + intros; apply nth_flow_row with (n := n); assumption.
  - apply (jacobian_coordinatewise n (fun i x => nth i fs (fun x => x) ((x - nth i means 0) / nth i stds 0))); auto.
    + intros; apply flow_row_length; assumption.
    + intros; apply nth_flow_row with (n := n); assumption.
Qed.
