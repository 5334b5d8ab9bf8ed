(** Gradients and information of a model that reads its probabilities from a table. *)
From Verif Require Import Base BaseFacts RBase RFacts M_Logit S_Logit P_Logit P_Logit3 M_Lik M_Est M_Stat S_Stat P_Stat5 P_Stat8 M_Scale S_Scale M_Info S_Info.
Import List.
Local Open Scope R_scope.

Lemma cell_reads lv items M probs p thetas r t i k : reads lv items M probs p -> Forall (fun t => length t = lv) thetas -> nth_error thetas r = Some t ->
  (i < items)%nat -> (k < M)%nat -> cell_of (probs thetas) r i k = p t i k.
Proof. intros HR HF Ht Hi Hk. unfold cell_of. now rewrite (HR thetas r t i k HF Ht Hi Hk). Qed.
Lemma slice_reads lv items M probs p thetas r t : reads lv items M probs p -> Forall (fun t => length t = lv) thetas -> nth_error thetas r = Some t ->
  slice items M (probs thetas) r = map (fun i => map (fun k => p t i k) (seq 0 M)) (seq 0 items).
Proof.
  intros HR HF Ht. unfold slice. apply map_ext_in. intros i Hi. apply map_ext_in. intros k Hk. apply in_seq in Hi, Hk.
  apply (cell_reads lv items M probs p thetas r t); auto; lia.
Qed.
Lemma gradient_reads lv items M probs p grad t D : reads lv items M probs p -> autograd_exact grad -> length t = lv -> partials lv items M p t D ->
  probability_gradient_at grad probs items M lv t = map (fun i => map (fun k => map (D i k) (seq 0 lv)) (seq 0 M)) (seq 0 items).
Proof.
  intros HR HG Ht HD. unfold probability_gradient_at. apply map_ext_in. intros i Hi. apply map_ext_in. intros k Hk. apply map_ext_in. intros d Hd.
  apply in_seq in Hi, Hk, Hd. apply HG.
  assert (E : (fun x => cell_of (probs [upd d x t]) 0 i k) = (fun x => p (upd d x t) i k)).
  { apply FunctionalExtensionality.functional_extensionality. intro x. apply (cell_reads lv items M probs p [upd d x t] 0); auto; try lia.
    constructor; [now rewrite upd_length|constructor]. }
  rewrite E. apply HD; lia.
Qed.
Lemma item_info_table M lv (q : nat -> R) (G : nat -> nat -> R) d e : (d < lv)%nat -> (e < lv)%nat ->
  item_info (map q (seq 0 M)) (map (fun k => map (G k) (seq 0 lv)) (seq 0 M)) d e = sumn M (fun k => if Req_EM_T (q k) 0 then 0 else G k d * G k e / q k).
Proof.
  intros Hd He. unfold item_info. apply rsum_index.
  - rewrite zip_with_length, !map_length, seq_length. apply Nat.min_id.
  - intros k Hk. rewrite nth_error_zip_with, !nth_error_map, nth_error_seq by exact Hk. cbn [option_map Nat.add]. now rewrite !nth_map_seq by assumption.
Qed.
Lemma regular_table M lv (q : nat -> R) (G : nat -> nat -> R) : (forall k, (k < M)%nat -> 0 < q k \/ (q k = 0 /\ forall d, (d < lv)%nat -> G k d = 0)) ->
  regular (map q (seq 0 M)) (map (fun k => map (G k) (seq 0 lv)) (seq 0 M)).
Proof.
  intros H. unfold regular. assert (X : forall l, (forall k, In k l -> (k < M)%nat) -> Forall2 (fun q d => 0 < q \/ (q = 0 /\ forall i, nth i d 0 = 0)) (map q l) (map (fun k => map (G k) (seq 0 lv)) l)).
  { induction l as [|k l IH]; intro Hl; cbn [map]; constructor; [|apply IH; intros; apply Hl; now right].
    destruct (H k (Hl k (or_introl eq_refl))) as [P|[P Z]]; [now left|right]. split; [exact P|]. intro d. destruct (Nat.lt_ge_cases d lv) as [Hd|Hd].
    - rewrite nth_map_seq by exact Hd. now apply Z.
    - apply nth_overflow. now rewrite map_length, seq_length. }
  apply X. intros k Hk. apply in_seq in Hk. lia.
Qed.
Lemma all_regular_table items M lv (q : nat -> nat -> R) (G : nat -> nat -> nat -> R) :
  (forall i k, (i < items)%nat -> (k < M)%nat -> 0 < q i k \/ (q i k = 0 /\ forall d, (d < lv)%nat -> G i k d = 0)) ->
  all_regular (map (fun i => map (q i) (seq 0 M)) (seq 0 items)) (map (fun i => map (fun k => map (G i k) (seq 0 lv)) (seq 0 M)) (seq 0 items)).
Proof.
  intros H. unfold all_regular. assert (X : forall l, (forall i, In i l -> (i < items)%nat) -> Forall2 regular (map (fun i => map (q i) (seq 0 M)) l) (map (fun i => map (fun k => map (G i k) (seq 0 lv)) (seq 0 M)) l)).
  { induction l as [|i l IH]; intro Hl; cbn [map]; constructor; [|apply IH; intros; apply Hl; now right].
    apply regular_table. intros k Hk. apply H; [apply Hl; now left|exact Hk]. }
  apply X. intros i Hi. apply in_seq in Hi. lia.
Qed.
Definition outcome (lv : nat) (item : bool) (p : list (list R)) (g : list (list (list R))) : info :=
  Matrices (let ms := zip_with (item_information lv) p g in if item then ms else [add_matrices lv ms]).
Lemma information_outcome lv item p g : information lv None item p g = Ok (outcome lv item p g).
Proof. reflexivity. Qed.
(** Given the gradients, row [r] of the result is the information computed from row [r]. *)
Lemma model_information_row grad solve probs items M lv scales rescale item thetas g r gr :
  probability_gradients grad solve probs items M lv scales rescale thetas = Ok g -> length g = length thetas -> nth_error g r = Some gr ->
  exists infos, model_information grad solve probs items M lv scales rescale None item thetas = Ok infos /\
    nth_error infos r = Some (outcome lv item (slice items M (probs thetas) r) gr).
Proof.
  intros E L Hr. unfold model_information. rewrite E. cbn [bind].
  rewrite (mapM_total _ (fun '(r, gr) => outcome lv item (slice items M (probs thetas) r) gr)) by (intros [r' gr'] _; reflexivity).
  eexists. split; [reflexivity|]. rewrite nth_error_map.
  assert (Hl : (r < length thetas)%nat) by (rewrite <- L; apply nth_error_Some; congruence).
  rewrite (nth_error_combine_some (seq 0 (length thetas)) g r r gr); [reflexivity| |exact Hr]. now rewrite nth_error_seq by exact Hl.
Qed.
(** Information of an item and of the test in terms of probabilities and their derivatives. *)
Definition fisher (M : nat) (q : nat -> R) (G : nat -> nat -> R) (d e : nat) : R := sumn M (fun k => if Req_EM_T (q k) 0 then 0 else G k d * G k e / q k).
Section given_gradients.
  Context (grad : (R -> R) -> R -> R) (solve : list (list R) -> list R -> result (list fl)) (probs : list (list R) -> list (list (list (option R)))) (items M lv : nat)
    (p : list R -> nat -> nat -> R) (HR : reads lv items M probs p) (thetas : list (list R)) (HF : Forall (fun t => length t = lv) thetas).
  Lemma outcome_item r t i (G : nat -> nat -> nat -> R) : nth_error thetas r = Some t -> (i < items)%nat ->
    (forall i k, (i < items)%nat -> (k < M)%nat -> 0 < p t i k \/ (p t i k = 0 /\ forall d, (d < lv)%nat -> G i k d = 0)) ->
    exists Ms Mi, outcome lv true (slice items M (probs thetas) r) (map (fun i => map (fun k => map (G i k) (seq 0 lv)) (seq 0 M)) (seq 0 items)) = Matrices Ms /\
      nth_error Ms i = Some Mi /\ forall d e, (d < lv)%nat -> (e < lv)%nat -> entry Mi d e (fisher M (p t i) (G i) d e).
  Proof.
    intros Ht Hi HS. unfold outcome. rewrite (slice_reads lv items M probs p thetas r t HR HF Ht).
    rewrite item_matrices by (apply all_regular_table; exact HS). eexists. eexists. split; [reflexivity|]. split.
    - rewrite nth_error_zip_with, !nth_error_map, nth_error_seq by exact Hi. cbn [option_map Nat.add]. reflexivity.
    - intros d e Hd He. unfold fisher. rewrite <- (item_info_table M lv (p t i) (G i) d e Hd He).
      exact (square_entry lv (item_info (map (p t i) (seq 0 M)) (map (fun k => map (G i k) (seq 0 lv)) (seq 0 M))) d e Hd He).
  Qed.
  Lemma outcome_test r t (G : nat -> nat -> nat -> R) : nth_error thetas r = Some t ->
    (forall i k, (i < items)%nat -> (k < M)%nat -> 0 < p t i k \/ (p t i k = 0 /\ forall d, (d < lv)%nat -> G i k d = 0)) ->
    exists Mt, outcome lv false (slice items M (probs thetas) r) (map (fun i => map (fun k => map (G i k) (seq 0 lv)) (seq 0 M)) (seq 0 items)) = Matrices [Mt] /\
      forall d e, (d < lv)%nat -> (e < lv)%nat -> entry Mt d e (sumn items (fun i => fisher M (p t i) (G i) d e)).
  Proof.
    intros Ht HS. unfold outcome. rewrite (slice_reads lv items M probs p thetas r t HR HF Ht).
    rewrite test_matrix by (apply all_regular_table; exact HS). eexists. split; [reflexivity|].
    intros d e Hd He. match goal with |- entry (P_Stat5.square _ ?f) _ _ ?x => replace x with (f d e); [now apply square_entry|] end.
    unfold test_info. apply rsum_index; [rewrite zip_with_length, !map_length, seq_length; apply Nat.min_id|].
    intros i Hi. rewrite nth_error_zip_with, !nth_error_map, nth_error_seq by exact Hi. cbn [option_map Nat.add]. f_equal. now apply item_info_table.
  Qed.
End given_gradients.
(** Without rescaling. *)
Lemma plain_gradients grad solve probs items M lv scales rescale thetas : rescale = false \/ scales = [] ->
  probability_gradients grad solve probs items M lv scales rescale thetas = Ok (map (probability_gradient_at grad probs items M lv) thetas).
Proof. intros [-> | ->]; unfold probability_gradients; [reflexivity|destruct rescale; reflexivity]. Qed.
Section plain.
  Context (grad : (R -> R) -> R -> R) (solve : list (list R) -> list R -> result (list fl)) (probs : list (list R) -> list (list (list (option R)))) (items M lv : nat)
    (p : list R -> nat -> nat -> R) (HR : reads lv items M probs p) (HG : autograd_exact grad) (scales : list scale) (rescale : bool) (HP : rescale = false \/ scales = [])
    (thetas : list (list R)) (HF : Forall (fun t => length t = lv) thetas) (r : nat) (t : list R) (Ht : nth_error thetas r = Some t)
    (D : nat -> nat -> nat -> R) (HD : partials lv items M p t D) (HS : supported lv items M p t D).
  Lemma plain_row item : exists infos, model_information grad solve probs items M lv scales rescale None item thetas = Ok infos /\
    nth_error infos r = Some (outcome lv item (slice items M (probs thetas) r) (map (fun i => map (fun k => map (D i k) (seq 0 lv)) (seq 0 M)) (seq 0 items))).
  Proof using HR HG HP HF Ht HD.
    assert (Lt : length t = lv) by (rewrite Forall_forall in HF; apply HF; eapply nth_error_In; eauto).
    eapply model_information_row; [now apply plain_gradients|apply map_length|]. rewrite nth_error_map, Ht. cbn [option_map]. f_equal.
    now apply (gradient_reads lv items M probs p).
  Qed.
  Lemma plain_item i : (i < items)%nat -> item_matrix_is lv (model_information grad solve probs items M lv scales rescale None true thetas) r i (fisher M (p t i) (D i)).
  Proof.
    intro Hi. destruct (plain_row true) as (infos & E & N). destruct (outcome_item probs items M lv p HR thetas HF r t i D Ht Hi HS) as (Ms & Mi & EO & EN & EE).
    exists infos, Ms, Mi. rewrite N, EO. auto.
  Qed.
  Lemma plain_test : test_matrix_is lv (model_information grad solve probs items M lv scales rescale None false thetas) r (fun d e => sumn items (fun i => fisher M (p t i) (D i) d e)).
  Proof.
    destruct (plain_row false) as (infos & E & N). destruct (outcome_test probs items M lv p HR thetas HF r t D Ht HS) as (Mt & EO & EE).
    exists infos, Mt. rewrite N, EO. auto.
  Qed.
End plain.
