(** Property C105: when ML and MAP scores exist. *)
From Verif Require T_Opt.
From Verif Require Import Base BaseFacts RBase RFacts M_Data M_Logit M_Lik M_Est M_Opt P_Logit P_Logit2 P_Est2 P_Opt1 P_Opt2 P_Opt3 P_Opt4 P_Opt5 P_Max1 P_Max2 P_Max3 P_Max4 P_Max5 P_Max6 P_Max7 P_Ex1 S_Logit S_Lik S_Est S_Opt S_Max.
Import List.
Local Open Scope R_scope.

Lemma lik_lt a b : 0 < a -> 0 < b -> ln a < ln b -> a < b.
Proof. intros Ha Hb H. now apply ln_lt_inv. Qed.

(** If the answers are nowhere pulled back on the way out in direction [v], and favour it somewhere, then no score is
    best: going further in that direction always makes the answers more likely. *)
Theorem C105_none : forall m p s row v,
  slopes_of m p s -> legal_row (em_cats m) row ->
  ~ held_back (em_cats m) (s v) row -> held_back (em_cats m) (fun i k => - s v i k) row ->
  forall t, length t = em_lv m -> exists t', length t' = em_lv m /\ likelihood p t row < likelihood p t' row.
Proof.
  intros m p s row v Hs HL H1 H2 t Lt. exists (line (em_lv m) t v 1). split; [apply line_length|]. pose proof (proj1 (slopes_library m p s Hs)) as Hm.
  destruct (lik_up m p s row t v Hs HL 0 1 H1 ltac:(lra)) as [_ H]. specialize (H H2). unfold lik_along in H. rewrite line_start in H by exact Lt. apply lik_lt; [now apply (library_likelihood m p)|now apply (library_likelihood m p)|exact H].
Qed.
Print Assumptions C105_none.

(** If the answers are pulled back in every direction there is exactly one best score. *)
Theorem C105_exists : forall m p s row,
  slopes_of m p s -> legal_row (em_cats m) row ->
  (forall v, length v = em_lv m -> (exists d, (d < em_lv m)%nat /\ nth d v 0 <> 0) -> held_back (em_cats m) (s v) row) ->
  exists t, length t = em_lv m /\ maximum (em_lv m) (fun t => likelihood p t row) t /\
    forall t', length t' = em_lv m -> maximum (em_lv m) (fun t => likelihood p t row) t' -> t' = t.
Proof.
  intros m p s row Hs HL HB. destruct (slopes_library m p s Hs) as [Hm HC]. destruct (ml_exists m p s row Hs HL HB) as (t & Lt & Ht). exists t. split; [exact Lt|]. split; [exact Ht|]. intros t' Lt' Ht'. set (lv := em_lv m) in *.
  set (v := map (fun d => nth d t' 0 - nth d t 0) (seq 0 lv)). assert (Lv : length v = lv) by (unfold v; now rewrite map_length, seq_length). assert (Ev : forall d, (d < lv)%nat -> nth d v 0 = nth d t' 0 - nth d t 0) by (intros d Hd; exact (nth_map_seq (fun d => nth d t' 0 - nth d t 0) lv d 0 Hd)).
  assert (EX : forall a b : list R, length a = lv -> length b = lv -> (forall d, (d < lv)%nat -> nth d a 0 = nth d b 0) -> a = b).
  { intros a b La Lb E. apply nth_error_ext. intro j. destruct (Nat.lt_ge_cases j lv) as [Hj|Hj]; [rewrite (nth_error_nth_lt a j 0), (nth_error_nth_lt b j 0) by lia; f_equal; now apply E|rewrite !(proj2 (nth_error_None _ _)) by lia; reflexivity]. }
  destruct (nonzero_dec lv (fun d => nth d v 0)) as [Hx|Hx].
  - exfalso. pose proof (HB v Lv Hx) as Hb. assert (L1 : line lv t v 1 = t') by (apply EX; [apply line_length|exact Lt'|]; intros d Hd; rewrite line_nth, Ev by exact Hd; ring). assert (L0 : line lv t v 0 = t) by now apply line_start.
    assert (M : forall u, maximum lv (fun t => likelihood p t row) u -> maximum lv (fun t => ln (likelihood p t row)) u) by (intros u Hu w Lw; apply ln_le; [now apply (library_likelihood m p)|now apply Hu]).
    assert (S : same_observed (em_cats m) p row t t').
    { apply (tangent_two_maxima lv (fun t => ln (likelihood p t row)) t t' _ Lt Lt'); [|now apply M|now apply M]. apply likelihood_touches; auto. intros; now apply (library_pos m p). }
    pose proof (lik_injective m p s row t v Hs HL 1 0 Hb) as HI. fold lv in HI. rewrite L0, L1 in HI. specialize (HI S). lra.
  - apply EX; [exact Lt'|exact Lt|]. intros d Hd. specialize (Hx d Hd). cbv beta in Hx. rewrite Ev in Hx by exact Hd. lra.
Qed.
Print Assumptions C105_exists.

(** Exactly when a best score exists, with any number of latent variables: every direction that the answers favour
    somewhere is one in which they are pulled back somewhere. *)
Lemma pull_zero m s row t : legal_row (em_cats m) row -> sumn (length row) (pull m s row t) = 0 -> ~ held_back (em_cats m) (s t) row.
Proof. intros HL E H. pose proof (pull_positive m s row HL t H). lra. Qed.
Theorem C105_iff : forall m p s row,
  slopes_of m p s -> legal_row (em_cats m) row ->
  ((exists t, length t = em_lv m /\ maximum (em_lv m) (fun t => likelihood p t row) t) <->
   forall v, length v = em_lv m -> held_back (em_cats m) (fun i k => - s v i k) row -> held_back (em_cats m) (s v) row).
Proof.
  intros m p s row Hs HL. pose proof (proj1 (slopes_library m p s Hs)) as Hm. split.
  - intros (t & Lt & Ht) v Lv H. destruct (held_back_dec (em_cats m) (s v) row) as [|HN]; [assumption|]. exfalso. destruct (C105_none m p s row v Hs HL HN H t Lt) as (t' & Lt' & Hl). specialize (Ht t' Lt'). cbv beta in Ht. lra.
  - intro HB. destruct (total_pull m p s row Hs HL (length row)) as (r & C & Hr & Hb). assert (HP : forall t, 0 < likelihood p t row) by (intro; now apply (library_likelihood m p)).
    apply (attained (em_lv m) (fun t => likelihood p t row) (fun t => ln (likelihood p t row)) (fun t => sumn (length row) (pull m s row t)) r C).
    + now apply (likelihood_ucont m p).
    + now apply (pull_ucont m p).
    + intros t _. apply sumn_nonneg. intros; apply pull_nonneg.
    + intros t N _ HN. now apply (pull_scaled m p).
    + intros t t' _ _ H. apply Rnot_lt_le. intro X. apply ln_increasing in X; [lra|apply HP].
    + exact Hr.
    + intros t Lt. rewrite (ln_likelihood (em_lv m) (em_cats m)) by (auto; intros; now apply (library_pos m p)). apply Hb.
    + intros v t x Lv Lt E. apply (pull_zero m s row v HL) in E. assert (E' : ~ held_back (em_cats m) (fun i k => - s v i k) row) by (intro X; now apply E, HB).
      assert (Q : forall a b, a < b -> lik_along m p row t v a = lik_along m p row t v b).
      { intros a b Hab. destruct (lik_up m p s row t v Hs HL a b E Hab) as [H1 _]. destruct (lik_down m p s row t v Hs HL a b E' Hab) as [H2 _]. lra. }
      assert (Q0 : lik_along m p row t v x = lik_along m p row t v 0) by (destruct (Rtotal_order x 0) as [H|[->|H]]; [now apply Q|reflexivity|symmetry; now apply Q]).
      unfold lik_along in Q0. rewrite (line_start _ t) in Q0 by exact Lt. apply ln_inv in Q0; [exact Q0|apply HP|apply HP].
Qed.
Print Assumptions C105_iff.

(** With one latent variable: a best score exists exactly when the answers are pulled back on both sides, or on neither. *)
Theorem C105_one : forall m p s row,
  slopes_of m p s -> em_lv m = 1%nat -> legal_row (em_cats m) row ->
  ((exists x, maximum 1 (fun t => likelihood p t row) [x]) <->
   (held_back (em_cats m) (s [1]) row <-> held_back (em_cats m) (fun i k => - s [1] i k) row)).
Proof.
  intros m p s row Hs E1 HL. destruct (slopes_library m p s Hs) as [Hm _]. set (F := lik_along m p row [0] [1]).
  assert (HF : forall x, F x = ln (likelihood p [x] row)) by (intro x; unfold F, lik_along; now rewrite E1, line_one).
  assert (HP : forall x, 0 < likelihood p [x] row) by (intro x; now apply (library_likelihood m p)).
  assert (HM : forall x, (forall y, F y <= F x) -> maximum 1 (fun t => likelihood p t row) [x]).
  { intros x H t' L'. destruct t' as [|y [|]]; try discriminate. specialize (H y). rewrite !HF in H. destruct (Rle_lt_dec (likelihood p [y] row) (likelihood p [x] row)) as [|HC]; [assumption|]. pose proof (ln_increasing _ _ (HP x) HC). lra. }
  split.
  - intros (x & Hx). assert (HX : forall y, F y <= F x) by (intro y; rewrite !HF; apply ln_le; [apply HP|now apply Hx]). split; intro H.
    + destruct (held_back_dec (em_cats m) (fun i k => - s [1] i k) row) as [|Hn]; [assumption|]. destruct (lik_down m p s row [0] [1] Hs HL (x - 1) x Hn ltac:(lra)) as [_ D]. specialize (D H). fold F in D. specialize (HX (x - 1)). lra.
    + destruct (held_back_dec (em_cats m) (s [1]) row) as [|Hn]; [assumption|]. destruct (lik_up m p s row [0] [1] Hs HL x (x + 1) Hn ltac:(lra)) as [_ D]. specialize (D H). fold F in D. specialize (HX (x + 1)). lra.
  - intro HI. destruct (held_back_dec (em_cats m) (s [1]) row) as [H|H].
    + destruct (lik_high_bound m p s row [0] [1] Hs HL H) as (r1 & c1 & Hr1 & B1). destruct (lik_low_bound m p s row [0] [1] Hs HL (proj1 HI H)) as (r2 & c2 & Hr2 & B2).
      destruct (squeezed_maximum F r1 c1 r2 c2 (lik_along_continuity m p s row [0] [1] Hs HL) Hr1 Hr2 B1 B2) as (x & Hx). exists x. now apply HM.
    + assert (H' : ~ held_back (em_cats m) (fun i k => - s [1] i k) row) by (intro Hd; apply H; now apply HI). exists 0. apply HM. intro y. destruct (Rtotal_order 0 y) as [Hy|[<-|Hy]]; [|lra|].
      * exact (proj1 (lik_down m p s row [0] [1] Hs HL 0 y H' Hy)).
      * exact (proj1 (lik_up m p s row [0] [1] Hs HL y 0 H Hy)).
Qed.
Print Assumptions C105_one.

(** With nonnegative slopes, someone who is in the top category of every answered item, one of them with a positive
    slope, has no ML score; the same for the bottom category. *)
Theorem C105_extreme : forall m row extreme,
  poly_wf m -> (0 < p_items m)%nat -> legal_row (p_cats m) row ->
  (forall i d, 0 <= slope (p_free m) (p_w m) i d) ->
  (extreme = (fun i => nth i (p_cats m) O - 1)%nat \/ extreme = (fun _ => 0%nat)) ->
  (forall i k, answer (nth i row None) = Some k -> k = extreme i) ->
  (exists i d, answer (nth i row None) <> None /\ (2 <= nth i (p_cats m) O)%nat /\ (d < p_lv m)%nat /\ 0 < slope (p_free m) (p_w m) i d) ->
  forall p, p = gpc_p m \/ (p = grm_p m /\ decreasing_intercepts m) ->
  forall t, length t = p_lv m -> exists t', length t' = p_lv m /\ likelihood p t row < likelihood p t' row.
Proof.
  intros m row extreme Hw Hi HL Hsl He Hall (i0 & d0 & Ho & HK & Hd0 & Hpos) p Hp. set (lv := p_lv m). set (A := fun v i => predictor lv (slope (p_free m) (p_w m) i) v).
  assert (HS : exists mm, slopes_of mm p (fun v i k => INR k * A v i) /\ em_cats mm = p_cats m /\ em_lv mm = lv).
  { destruct Hp as [-> |[-> Hdec]]; [exists (of_sub (gpc_sub 0 m))|exists (of_sub (grm_sub 0 m))]; (split; [now constructor|split; reflexivity]). }
  destruct HS as (mm & Hs & EC & EL). rewrite <- EL.
  assert (AP : forall c i, A (repeat c lv) i = c * sumn lv (slope (p_free m) (p_w m) i)).
  { intros c i. unfold A, predictor. rewrite <- sumn_scal. apply sumn_ext. intros d Hd. rewrite (nth_error_nth _ _ 0 (nth_error_repeat_lt c lv d Hd)). ring. }
  assert (A0 : forall i, 0 <= sumn lv (slope (p_free m) (p_w m) i)) by (intro i; apply sumn_nonneg; intros; apply Hsl).
  assert (A1 : 0 < sumn lv (slope (p_free m) (p_w m) i0)) by (apply Rlt_le_trans with (slope (p_free m) (p_w m) i0 d0); [exact Hpos|apply (sumn_term_le lv (slope (p_free m) (p_w m) i0) d0); [intros; apply Hsl|exact Hd0]]).
  destruct (answer (nth i0 row None)) as [k0|] eqn:E0; [|congruence]. pose proof (Hall i0 k0 E0) as Ek0. destruct He as [-> | -> ].
  - apply (C105_none mm p _ row (repeat 1 lv) Hs); rewrite EC; [exact HL| |].
    + intros (i & k & j & E & Hj & Hl). rewrite (Hall i k E), AP in Hl. assert (INR j <= INR (nth i (p_cats m) O - 1)) by (apply le_INR; lia). specialize (A0 i). nra.
    + exists i0, k0, 0%nat. split; [exact E0|]. split; [lia|]. rewrite AP. assert (1 <= INR k0) by (replace 1 with (INR 1) by reflexivity; apply le_INR; lia). cbn [INR]. nra.
  - apply (C105_none mm p _ row (repeat (-1) lv) Hs); rewrite EC; [exact HL| |].
    + intros (i & k & j & E & Hj & Hl). rewrite (Hall i k E), AP in Hl. pose proof (pos_INR j). specialize (A0 i). cbn [INR] in Hl. nra.
    + exists i0, k0, 1%nat. split; [exact E0|]. split; [lia|]. rewrite AP, Ek0. cbn [INR]. nra.
Qed.
Print Assumptions C105_extreme.

(** The MAP score exists for every model, also with guessing, whatever was answered. *)
Theorem C105_map : forall m p row c P,
  library_model m p -> legal_row (em_cats m) row -> precision (em_lv m) P ->
  exists t, length t = em_lv m /\ maximum (em_lv m) (fun t => exp (normal_prior (em_lv m) c P t) * likelihood p t row) t.
Proof. exact map_exists. Qed.
Print Assumptions C105_map.

(** ** The loss *)
Lemma choose_rows {A B} (P : A -> B -> Prop) l : (forall a, In a l -> exists b, P a b) -> exists l', Forall2 P l l'.
Proof.
  induction l as [|a l IH]; intro H; [exists []; constructor|]. destruct (H a (or_introl eq_refl)) as [b Hb]. destruct IH as [l' Hl']; [intros x Hx; apply H; now right|]. exists (b :: l'). now constructor.
Qed.
Lemma same_length {A B} (P : A -> B -> Prop) l l' : Forall2 P l l' -> length l' = length l.
Proof. induction 1; cbn; congruence. Qed.
Lemma Forall2_nth {A B} (P : A -> B -> Prop) l l' n a b : Forall2 P l l' -> nth_error l n = Some a -> nth_error l' n = Some b -> P a b.
Proof. intro H. revert n. induction H as [|x y l l' Hxy _ IH]; intros [|n] Ha Hb; try discriminate; [injection Ha as <-; injection Hb as <-; exact Hxy|now apply (IH n)]. Qed.
(** If every respondent's answers are pulled back in every direction, one table of scores has a smaller loss than all
    others. *)
Theorem C105_ml_scores : forall m p s data,
  slopes_of m p s -> legal_data (em_cats m) data ->
  (forall row v, In row data -> length v = em_lv m -> (exists d, (d < em_lv m)%nat /\ nth d v 0 <> 0) -> held_back (em_cats m) (s v) row) ->
  exists thetas, rect (length data) (em_lv m) thetas /\
    forall thetas', rect (length data) (em_lv m) thetas' -> thetas' <> thetas ->
    exists a b, scoring_loss m None (Wide (em_items m) data) thetas = Ok (Some (Fin a)) /\ scoring_loss m None (Wide (em_items m) data) thetas' = Ok (Some (Fin b)) /\ a < b.
Proof.
  intros m p s data Hs HD HB. destruct (slopes_library m p s Hs) as [Hm HC]. set (lv := em_lv m) in *. unfold legal_data in HD. rewrite Forall_forall in HD.
  destruct (choose_rows (fun row t => length t = lv /\ maximum lv (fun t => likelihood p t row) t /\ forall t', length t' = lv -> maximum lv (fun t => likelihood p t row) t' -> t' = t) data) as [thetas HF].
  { intros row Hr. destruct (C105_exists m p s row Hs (HD row Hr) (fun v => HB row v Hr)) as (t & H). exists t. exact H. }
  assert (HR : rect (length data) lv thetas) by (split; [exact (same_length _ _ _ HF)|clear - HF; induction HF as [|x y l l' H _ IH]; constructor; [apply H|exact IH]]). exists thetas. split; [exact HR|]. intros thetas' HR' Hne.
  destruct (T_Opt.C104_ml m p data Hm HC ltac:(now apply Forall_forall)) as (L & HL & HT). fold lv in HL, HT. exists (L thetas), (L thetas'). split; [now apply HL|]. split; [now apply HL|].
  destruct (HT thetas HR) as (_ & H2 & _). destruct (HT thetas' HR') as (_ & H2' & _).
  assert (M : forall th, rect (length data) lv th -> L thetas <= L th) by (apply H2; intros n row t En Et t' Lt'; now apply (Forall2_nth _ data thetas n row t HF En Et)).
  destruct (Rlt_le_dec (L thetas) (L thetas')) as [|Hle]; [assumption|]. exfalso. apply Hne. assert (M' : forall th, rect (length data) lv th -> L thetas' <= L th) by (intros th Hth; specialize (M th Hth); lra). rewrite H2' in M'.
  apply nth_error_ext. intro n. destruct (nth_error data n) as [row|] eqn:En.
  - assert (Hn : (n < length data)%nat) by (apply nth_error_Some; congruence). destruct (nth_error thetas n) as [t|] eqn:Et; [|apply nth_error_None in Et; destruct HR; lia]. destruct (nth_error thetas' n) as [t'|] eqn:Et'; [|apply nth_error_None in Et'; destruct HR'; lia].
    f_equal. apply (Forall2_nth _ data thetas n row t HF En Et); [destruct HR' as [_ HF']; rewrite Forall_forall in HF'; apply HF'; eapply nth_error_In; eauto|]. intros u Lu. now apply (M' n row t').
  - apply nth_error_None in En. destruct HR, HR'. rewrite !(proj2 (nth_error_None _ _)) by lia. reflexivity.
Qed.
Print Assumptions C105_ml_scores.
(** One respondent whose answers all favour some direction: no table of scores has the least loss. *)
Theorem C105_ml_no_scores : forall m p s data row v,
  slopes_of m p s -> legal_data (em_cats m) data -> In row data ->
  ~ held_back (em_cats m) (s v) row -> held_back (em_cats m) (fun i k => - s v i k) row ->
  forall thetas, rect (length data) (em_lv m) thetas -> exists thetas' a b, rect (length data) (em_lv m) thetas' /\
    scoring_loss m None (Wide (em_items m) data) thetas = Ok (Some (Fin a)) /\ scoring_loss m None (Wide (em_items m) data) thetas' = Ok (Some (Fin b)) /\ b < a.
Proof.
  intros m p s data row v Hs HD Hin H1 H2 thetas HR. destruct (slopes_library m p s Hs) as [Hm HC]. set (lv := em_lv m) in *. assert (HD' := HD). unfold legal_data in HD'. rewrite Forall_forall in HD'. apply In_nth_error in Hin as [n En]. assert (Hn : (n < length data)%nat) by (apply nth_error_Some; congruence).
  destruct (nth_error thetas n) as [t|] eqn:Et; [|apply nth_error_None in Et; destruct HR; lia]. assert (Lt : length t = lv) by (destruct HR as [_ HF]; rewrite Forall_forall in HF; apply HF; eapply nth_error_In; eauto).
  destruct (C105_none m p s row v Hs (HD' row (nth_error_In _ _ En)) H1 H2 t Lt) as (t' & Lt' & Hl). set (F := fun n => row_target p None (nth n data [])). set (thetas' := upd n t' thetas). assert (HR' : rect (length data) lv thetas') by exact (upd_shaped lv (length data) thetas n t' HR Lt').
  exists thetas', (- total F (length data) thetas), (- total F (length data) thetas'). split; [exact HR'|]. split; [destruct HR as [A B]; now rewrite (scoring_loss_value m p)|]. split; [destruct HR' as [A B]; now rewrite (scoring_loss_value m p)|].
  unfold thetas'. rewrite (total_upd lv F (length data) thetas n t' HR Hn). rewrite (nth_error_nth _ _ [] Et). unfold F, row_target, prior_term. rewrite (nth_error_nth _ _ [] En). pose proof (ln_increasing _ _ (library_likelihood m p t row Hm (HD' row (nth_error_In _ _ En))) Hl). lra.
Qed.
Print Assumptions C105_ml_no_scores.
(** Exactly when a table of scores has the least loss. *)
Theorem C105_ml_iff : forall m p s data,
  slopes_of m p s -> legal_data (em_cats m) data ->
  ((exists thetas, rect (length data) (em_lv m) thetas /\ forall thetas', rect (length data) (em_lv m) thetas' ->
      exists a b, scoring_loss m None (Wide (em_items m) data) thetas = Ok (Some (Fin a)) /\ scoring_loss m None (Wide (em_items m) data) thetas' = Ok (Some (Fin b)) /\ a <= b) <->
   forall row v, In row data -> length v = em_lv m -> held_back (em_cats m) (fun i k => - s v i k) row -> held_back (em_cats m) (s v) row).
Proof.
  intros m p s data Hs HD. destruct (slopes_library m p s Hs) as [Hm HC]. split.
  - intros (thetas & HR & HT) row v Hin Lv H. destruct (held_back_dec (em_cats m) (s v) row) as [|HN]; [assumption|]. exfalso. destruct (C105_ml_no_scores m p s data row v Hs HD Hin HN H thetas HR) as (thetas' & a & b & HR' & Ea & Eb & Hl).
    destruct (HT thetas' HR') as (a' & b' & Ea' & Eb' & Hle). rewrite Ea in Ea'. rewrite Eb in Eb'. injection Ea' as <-. injection Eb' as <-. lra.
  - intro HB. assert (HD' := HD). unfold legal_data in HD'. rewrite Forall_forall in HD'. set (lv := em_lv m) in *.
    destruct (choose_rows (fun row t => length t = lv /\ maximum lv (fun t => likelihood p t row) t) data) as [thetas HF]; [intros row Hr; apply (proj2 (C105_iff m p s row Hs (HD' row Hr))); intros v Lv; now apply HB|].
    assert (HR : rect (length data) lv thetas) by (split; [exact (same_length _ _ _ HF)|clear - HF; induction HF as [|x y l l' H _ IH]; constructor; [apply H|exact IH]]). exists thetas. split; [exact HR|]. intros thetas' HR'.
    destruct (T_Opt.C104_ml m p data Hm HC HD) as (L & HL & HT). fold lv in HL, HT. exists (L thetas), (L thetas'). split; [now apply HL|]. split; [now apply HL|]. destruct (HT thetas HR) as (_ & H2 & _).
    apply (proj2 H2); [|exact HR']. intros n row t En Et t' Lt'. now apply (Forall2_nth _ data thetas n row t HF En Et).
Qed.
Print Assumptions C105_ml_iff.
(** With the prior, one table of scores has a smaller loss than all others, whatever was answered. *)
Theorem C105_map_scores : forall m p s data c P,
  slopes_of m p s -> legal_data (em_cats m) data -> precision (em_lv m) P ->
  exists thetas, rect (length data) (em_lv m) thetas /\
    forall thetas', rect (length data) (em_lv m) thetas' -> thetas' <> thetas ->
    exists a b, scoring_loss m (Some (normal_prior (em_lv m) c P)) (Wide (em_items m) data) thetas = Ok (Some (Fin a)) /\
      scoring_loss m (Some (normal_prior (em_lv m) c P)) (Wide (em_items m) data) thetas' = Ok (Some (Fin b)) /\ a < b.
Proof.
  intros m p s data c P Hs HD HP. destruct (slopes_library m p s Hs) as [Hm HC]. set (lv := em_lv m) in *. assert (HD' := HD). unfold legal_data in HD'. rewrite Forall_forall in HD'.
  destruct (choose_rows (fun row t => length t = lv /\ maximum lv (fun t => exp (normal_prior lv c P t) * likelihood p t row) t) data) as [thetas HF]; [intros row Hr; exact (map_exists m p row c P Hm (HD' row Hr) HP)|].
  assert (HR : rect (length data) lv thetas) by (split; [exact (same_length _ _ _ HF)|clear - HF; induction HF as [|x y l l' H _ IH]; constructor; [apply H|exact IH]]). exists thetas. split; [exact HR|]. intros thetas' HR' Hne.
  destruct (T_Opt.C104_map m p data c P Hm HC HD HP) as (L & HL & HT). fold lv in HL, HT. exists (L thetas), (L thetas'). split; [now apply HL|]. split; [now apply HL|]. destruct (HT thetas HR) as (_ & H2 & H3).
  assert (M : forall th, rect (length data) lv th -> L thetas <= L th) by (apply H2; intros n row t En Et t' Lt'; now apply (Forall2_nth _ data thetas n row t HF En Et)).
  destruct (Rlt_le_dec (L thetas) (L thetas')) as [|Hle]; [assumption|]. exfalso. apply Hne. apply H3; [exact HR'|exact M|]. intros th Hth. specialize (M th Hth). lra.
Qed.
Print Assumptions C105_map_scores.

(** With guessing a right and a wrong answer do not suffice: a hard item right and an easy item wrong. *)
Definition lucky : thpl := {| thpl_lv := 1; thpl_free := [[true]; [true]]; thpl_w := [1; 1]; thpl_b := [0; ln 3]; thpl_g := [- ln 3; - ln 3] |}.
Lemma lucky_likelihood x : likelihood (thpl_p lucky) [x] [Some 1%Z; Some 0%Z] = 3 / 4 * ((/ 4 + exp x) / ((1 + exp x) * (1 + 3 * exp x))).
Proof.
  assert (G : logistic (- ln 3) = / 4). { replace (- ln 3) with (ln (/ 3)) by (apply ln_Rinv; lra). rewrite logistic_ln by lra. field. }
  unfold likelihood. cbn [mapi mapi_from rprod]. unfold answer. change (1 =? -1)%Z with false. change (0 =? -1)%Z with false. cbv iota. unfold thpl_p, predictor, slope. change (Z.to_nat 1) with 1%nat. change (Z.to_nat 0) with 0%nat.
  cbn. rewrite G. rewrite !logistic_exp, !exp_plus, exp_ln by lra. rewrite exp_0. replace (0 + 1 * x) with x by ring. rewrite ?Rmult_1_l, ?Rmult_1_r. rewrite ?Rplus_0_l, ?exp_0, ?Rmult_1_l. pose proof (exp_pos x). field. lra.
Qed.
Theorem C105_guessing_refuted : exists m row,
  library_model (of_sub (thpl_sub 0 m)) (thpl_p m) /\ thpl_lv m = 1%nat /\ legal_row (repeat 2%nat 2) row /\
  0 < slope (thpl_free m) (thpl_w m) 0 0 /\ 0 < slope (thpl_free m) (thpl_w m) 1 0 /\ row = [Some 1%Z; Some 0%Z] /\
  forall x, exists y, likelihood (thpl_p m) [x] row < likelihood (thpl_p m) [y] row.
Proof.
  exists lucky, [Some 1%Z; Some 0%Z]. split; [apply lib_thpl; [repeat split; cbn; try lia; repeat constructor|unfold thpl_items; cbn; lia]|]. split; [reflexivity|]. split.
  { split; [reflexivity|]. intros i c Hc. right. right. destruct i as [|[|i]]; cbn in Hc; [exists 1%nat|exists 0%nat|destruct i; discriminate]; (split; [now injection Hc as <-|cbn; lia]). }
  split; [unfold slope; cbn; lra|]. split; [unfold slope; cbn; lra|]. split; [reflexivity|]. intro x. exists (x - 1). rewrite !lucky_likelihood. apply Rmult_lt_compat_l; [lra|].
  assert (Hlt : exp (x - 1) < exp x) by (apply exp_increasing; lra). pose proof (exp_pos (x - 1)) as P1. set (u := exp (x - 1)) in *. set (v := exp x) in *. assert (D1 : 0 < (1 + u) * (1 + 3 * u)) by (apply Rmult_lt_0_compat; lra). assert (D2 : 0 < (1 + v) * (1 + 3 * v)) by (apply Rmult_lt_0_compat; lra).
  apply (Rmult_lt_reg_r ((1 + u) * (1 + 3 * u) * ((1 + v) * (1 + 3 * v)))); [now apply Rmult_lt_0_compat|]. replace ((/ 4 + v) / ((1 + v) * (1 + 3 * v)) * ((1 + u) * (1 + 3 * u) * ((1 + v) * (1 + 3 * v)))) with ((/ 4 + v) * ((1 + u) * (1 + 3 * u))) by (field; lra).
  replace ((/ 4 + u) / ((1 + u) * (1 + 3 * u)) * ((1 + u) * (1 + 3 * u) * ((1 + v) * (1 + 3 * v)))) with ((/ 4 + u) * ((1 + v) * (1 + 3 * v))) by (field; lra).
  assert (0 < (v - u) * (3 / 4 * (u + v) + 3 * u * v)) by (apply Rmult_lt_0_compat; [lra|]; pose proof (Rmult_lt_0_compat u v P1 ltac:(lra)); lra). lra.
Qed.
Print Assumptions C105_guessing_refuted.

(** Two partial credit items of three categories with slopes 1 and -1 in one latent variable.  The answers 1 and 1 have a
    best score; the answers 2 and 0 push the same way and have none. *)
Definition seesaw : poly := {| p_lv := 1; p_cats := [3%nat; 3%nat]; p_free := [[true]; [true]]; p_w := [1; -1]; p_b := [0; 1; 2; 0] |}.
Example C105_nonvacuous :
  slopes_of (of_sub (gpc_sub 0 seesaw)) (gpc_p seesaw) (fun v i k => INR k * predictor 1 (slope (p_free seesaw) (p_w seesaw) i) v) /\
  (forall v, length v = 1%nat -> (exists d, (d < 1)%nat /\ nth d v 0 <> 0) -> held_back [3%nat; 3%nat] (fun i k => INR k * predictor 1 (slope (p_free seesaw) (p_w seesaw) i) v) [Some 1%Z; Some 1%Z]) /\
  ~ held_back [3%nat; 3%nat] (fun i k => INR k * predictor 1 (slope (p_free seesaw) (p_w seesaw) i) [1]) [Some 2%Z; Some 0%Z] /\
  held_back [3%nat; 3%nat] (fun i k => - (INR k * predictor 1 (slope (p_free seesaw) (p_w seesaw) i) [1])) [Some 2%Z; Some 0%Z].
Proof.
  assert (P0 : forall v, predictor 1 (slope (p_free seesaw) (p_w seesaw) 0) v = nth 0 v 0) by (intro v; unfold predictor, slope; cbn; ring).
  assert (P1 : forall v, predictor 1 (slope (p_free seesaw) (p_w seesaw) 1) v = - nth 0 v 0) by (intro v; unfold predictor, slope; cbn; ring).
  split; [|split; [|split]].
  - apply (slopes_gpc 0 seesaw); [repeat split; cbn; try lia; repeat constructor; lia|unfold p_items; cbn; lia].
  - intros v Lv (d & Hd & Hx). replace d with 0%nat in Hx by lia. destruct (Rdichotomy _ _ Hx) as [H|H]; [exists 0%nat, 1%nat, 0%nat|exists 0%nat, 1%nat, 2%nat]; (split; [reflexivity|split; [cbn; lia|]]); rewrite P0; cbn [INR]; lra.
  - intros (i & k & j & E & Hj & Hl). destruct i as [|[|i]]; [| |destruct i; discriminate]; cbn in Hj; [replace k with 2%nat in Hl by (injection E as <-; reflexivity)|replace k with 0%nat in Hl by (injection E as <-; reflexivity)]; rewrite ?P0, ?P1 in Hl; cbn [nth] in Hl; (destruct j as [|[|[|j]]]; [| | |lia]); cbn [INR] in Hl; lra.
  - exists 0%nat, 2%nat, 0%nat. split; [reflexivity|]. split; [cbn; lia|]. rewrite P0. cbn [INR nth]. lra.
Qed.

(** Two items with the same slopes in two latent variables: the answers pull neither way along (1, -1), and a right and a
    wrong answer have a best score. *)
Definition level : tpl := {| tpl_lv := 2; tpl_free := [[true; true]; [true; true]]; tpl_w := [1; 1; 1; 1]; tpl_b := [0; 1] |}.
Example C105_iff_nonvacuous :
  let s := fun v i k => INR k * predictor 2 (slope (tpl_free level) (tpl_w level) i) v in
  slopes_of (of_sub (tpl_sub 0 level)) (tpl_p level) s /\
  ~ held_back [2%nat; 2%nat] (s [1; -1]) [Some 1%Z; Some 0%Z] /\
  exists t, length t = 2%nat /\ maximum 2 (fun t => likelihood (tpl_p level) t [Some 1%Z; Some 0%Z]) t.
Proof.
  intro s. assert (P : forall v i, (i < 2)%nat -> predictor 2 (slope (tpl_free level) (tpl_w level) i) v = nth 0 v 0 + nth 1 v 0) by (intros v [|[|i]] Hi; [| |lia]; unfold predictor, slope; cbn; ring).
  assert (HS : slopes_of (of_sub (tpl_sub 0 level)) (tpl_p level) s) by (apply (slopes_tpl 0 level); [repeat split; cbn; try lia; repeat constructor|unfold tpl_items; cbn; lia]).
  assert (A1 : answer (Some 1%Z) = Some 1%nat) by reflexivity. assert (A0 : answer (Some 0%Z) = Some 0%nat) by reflexivity.
  split; [exact HS|]. split.
  - intros (i & k & j & Ea & Hj & Hl). destruct i as [|[|i]]; [| |destruct i; discriminate]; unfold s in Hl; rewrite P in Hl by lia; cbn [nth] in Hl; replace (1 + -1) with 0 in Hl by ring; lra.
  - apply (proj2 (C105_iff (of_sub (tpl_sub 0 level)) (tpl_p level) s [Some 1%Z; Some 0%Z] HS ltac:(split; [reflexivity|]; intros [|[|i]] c Hc; [injection Hc as <-; right; right; exists 1%nat; split; [reflexivity|cbn; lia]|injection Hc as <-; right; right; exists 0%nat; split; [reflexivity|cbn; lia]|destruct i; discriminate]))).
    intros v _ (i & k & j & Ea & Hj & Hl). change (em_cats (of_sub (tpl_sub 0 level))) with [2%nat; 2%nat] in *. destruct i as [|[|i]]; [| |destruct i; discriminate]; unfold s in Hl; rewrite P in Hl by lia; cbn [nth] in Ea, Hj; rewrite ?A1, ?A0 in Ea; injection Ea as <-; (destruct j as [|[|j]]; [| |lia]); cbn [INR] in Hl; try lra.
    + exists 1%nat, 0%nat, 1%nat. split; [reflexivity|]. split; [cbn; lia|]. unfold s. rewrite P by lia. cbn [INR]. lra.
    + exists 0%nat, 1%nat, 0%nat. split; [reflexivity|]. split; [cbn; lia|]. unfold s. rewrite P by lia. cbn [INR]. lra.
Qed.
