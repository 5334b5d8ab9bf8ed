(** Models whose forward pass refuses an empty batch, and models whose output is a table of probabilities. *)
From Coq Require Import Lra.
From Verif Require Import Base BaseFacts RBase RFacts M_Data M_CV M_Logit M_Lik M_Est M_Opt M_Jml M_Mono M_BSpl M_Tab P_Data P_Logit P_Logit3 P_Mono4 P_Mono5 P_Lik1 P_Lik2 P_Lik5 P_Est1 P_Est2 P_Est3 P_Opt3 P_BSpl3 P_BSpl4 S_Logit S_Lik S_Est S_Eap S_Mono S_BSpl S_Flex.
Import List.
Local Open Scope R_scope.

(** ** Equal on batches that are not empty *)
Section Agree.
Variables m m' : emodel.
Hypothesis A1 : em_lv m = em_lv m'.
Hypothesis A2 : em_cats m = em_cats m'.
Hypothesis A3 : forall red data out mask, em_ll m red data out mask = em_ll m' red data out mask.
Hypothesis A4 : forall thetas, thetas <> [] -> Forall (fun t => length t = em_lv m') thetas -> em_forward m thetas = em_forward m' thetas.
Lemma bind_ext {A B} (r : result A) (f g : A -> result B) : (forall a, f a = g a) -> bind r f = bind r g.
Proof. intro H. destruct r; cbn; auto. Qed.
Lemma agree_items : em_items m = em_items m'.
Proof. unfold em_items. now rewrite A2. Qed.
Lemma agree_mml points lw data : repeat_interleave (length (w_rows data)) points <> [] -> Forall (fun t => length t = em_lv m') (repeat_interleave (length (w_rows data)) points) ->
  mml_loss m points lw data = mml_loss m' points lw data.
Proof.
  intros Hn HF. unfold mml_loss. rewrite agree_items, A4 by assumption. apply bind_ext. intro out. now rewrite A3.
Qed.
Lemma agree_scoring prior data thetas : thetas <> [] -> Forall (fun t => length t = em_lv m') thetas -> scoring_loss m prior data thetas = scoring_loss m' prior data thetas.
Proof. intros Hn HF. unfold scoring_loss. rewrite A4 by assumption. apply bind_ext. intro out. now rewrite A3. Qed.
Lemma agree_eap_scores grid lp data : grid <> [] -> Forall (fun t => length t = em_lv m') grid -> eap_scores m grid lp data = eap_scores m' grid lp data.
Proof.
  intros Hn HF. unfold eap_scores. rewrite A1, A4 by assumption. apply bind_ext. intro out. apply bind_ext. intro out2. now rewrite A3.
Qed.
Lemma agree_eap mvn a scores points data : al_training a = Some (Some scores) -> scores <> [] ->
  let g := match points with Some g => g | None => eap_default_points (em_lv m') end in (0 < g)%nat ->
  eap_theta_scores mvn m a points data = eap_theta_scores mvn m' a points data.
Proof.
  intros Ha Hs g Hg. unfold eap_theta_scores. rewrite A1. destruct (4 <? em_lv m')%nat; [reflexivity|]. cbv zeta. rewrite Ha. fold g.
  destruct (theta_grid (em_lv m') scores g) as [grid|e] eqn:EG; [|reflexivity]. cbn [bind fst snd]. apply bind_ext. intro logpdf.
  apply agree_eap_scores.
  - pose proof (grid_length (em_lv m') g scores grid Hs EG) as HL. intros ->. cbn [length] in HL. symmetry in HL. apply Nat.pow_eq_0_iff in HL. lia.
  - apply Forall_forall. intros t Ht. exact (proj1 (proj1 (in_grid (em_lv m') g scores grid Hs EG t) Ht)).
Qed.
Lemma agree_eap_new mvn points data : let g := match points with Some g => g | None => eap_default_points (em_lv m') end in (0 < g)%nat ->
  eap_theta_scores mvn m no_algorithm points data = eap_theta_scores mvn m' no_algorithm points data.
Proof.
  intros g Hg. unfold eap_theta_scores. rewrite A1. destruct (4 <? em_lv m')%nat; [reflexivity|]. cbv zeta. cbn [al_training al_covariance no_algorithm]. fold g. cbn [bind fst snd]. apply bind_ext. intro logpdf.
  apply agree_eap_scores.
  - intro E. apply (f_equal (@length _)) in E. rewrite P_CV.product_length, map_repeat in E. unfold linspace in E. rewrite map_length, seq_length in E.
    assert (G : forall a k, (0 < a)%nat -> fold_right Nat.mul 1%nat (repeat a k) <> 0%nat) by (clear; induction k as [|k IH]; intro Ha; cbn [repeat fold_right]; [lia|]; specialize (IH Ha); nia). now apply (G g (em_lv m') Hg).
  - apply Forall_forall. intros t Ht. apply in_product in Ht. apply Forall2_len in Ht. now rewrite repeat_length in Ht.
Qed.
Lemma agree_scored p : scored_by m' p -> scored_by m p.
Proof.
  intros (S1 & S2 & S3 & S4). unfold scored_by. rewrite A1, A2, agree_items. split; [|split; [|split]].
  - intros points ws data Hp Hd Hl HF Hw HL. rewrite agree_mml; [now apply S1| |].
    + cbn [w_rows]. destruct points as [|t ts]; [congruence|]. destruct data as [|r rs]; [congruence|]. cbn. discriminate.
    + cbn [w_rows]. now apply repeat_interleave_forall.
  - intros thetas data Hd HF HL HG. assert (Hn : thetas <> []) by (intros ->; destruct data; [congruence|discriminate]). destruct (S2 thetas data Hd HF HL HG) as [E1 E2]. split.
    + change (jml_loss m (Wide (em_items m') data) thetas) with (scoring_loss m None (Wide (em_items m') data) thetas). rewrite agree_scoring by assumption. exact E1.
    + intro lp. rewrite agree_scoring by assumption. apply E2.
  - cbv zeta. intros mvn a scores logpdf points Hlv Ha Hs Hm Hg. destruct (S3 mvn a scores logpdf points Hlv Ha Hs Hm Hg) as (grid & HG & E). exists grid. split; [exact HG|]. intros data Hd HL.
    rewrite (agree_eap mvn a scores points) by assumption. now apply E.
  - cbv zeta. intros mvn logpdf points Hlv Hm Hg. destruct (S4 mvn logpdf points Hlv Hm Hg) as (grid & HG & E). exists grid. split; [exact HG|]. intros data Hd HL.
    rewrite agree_eap_new by assumption. now apply E.
Qed.
End Agree.

(** ** Tables of probabilities *)
Section Tables.
Variable m : emodel.
Variable nanl : Z.
Variable f : list R -> list (list R).
Let cats := em_cats m.
Let M := list_max cats.
Hypothesis HC : cats <> [].
Hypothesis HK : Forall (fun K => (1 <= K)%nat) cats.
Hypothesis Hitems : forall t, length t = em_lv m -> length (f t) = length cats /\ Forall (fun r => length r = M) (f t).
Definition table_p (t : list R) (i k : nat) : R := nth k (nth i (f t) []) 0.
Hypothesis HD : distributions (em_lv m) cats table_p.
Hypothesis Hf : forall thetas, Forall (fun t => length t = em_lv m) thetas -> em_forward m thetas = Ok (T3 (Cube (length cats) M (some3 (map f thetas)))).
Hypothesis Hll : forall red data c mask, em_ll m red data (T3 c) mask = prob_log_likelihood nanl M red (w_rows data) (cb_rows c) (option_map w_rows mask).

Lemma table_at thetas r t i K k : Forall (fun t => length t = em_lv m) thetas -> nth_error thetas r = Some t -> nth_error cats i = Some K -> (k < K)%nat ->
  at3 (some3 (map f thetas)) r i k = Some (Some (table_p t i k)).
Proof.
  intros HF Hr Hi Hk. assert (Ht : length t = em_lv m) by (rewrite Forall_forall in HF; apply HF; eapply nth_error_In; eauto).
  destruct (Hitems t Ht) as [L1 L2]. rewrite some3_at3. unfold at3, at2. rewrite nth_error_map, Hr. cbn [option_map].
  assert (Hil : (i < length cats)%nat) by (apply nth_error_Some; congruence).
  assert (E : nth_error (f t) i = Some (nth i (f t) [])) by (apply nth_error_nth_lt; lia). rewrite E.
  assert (Hrl : length (nth i (f t) []) = M) by (rewrite Forall_forall in L2; apply L2; eapply nth_error_In; eauto).
  assert ((K <= M)%nat) by (apply list_max_bound; eapply nth_error_In; eauto).
  assert (E2 : nth_error (nth i (f t) []) k = Some (nth k (nth i (f t) []) 0)) by (apply nth_error_nth_lt; lia). rewrite E2. reflexivity.
Qed.
Lemma table_pos t i k : length t = em_lv m -> (k < nth i cats O)%nat -> 0 < table_p t i k.
Proof.
  intros Ht Hk. destruct (nth_error cats i) as [K|] eqn:EK; [|apply nth_error_None in EK; rewrite nth_overflow in Hk by exact EK; lia]. apply (proj1 (HD t i K Ht EK)). now rewrite (nth_error_nth _ _ O EK) in Hk.
Qed.
Lemma table_loglik thetas data mask x : Forall (fun t => length t = em_lv m) thetas -> rect (length thetas) (length cats) data -> rect_opt (length thetas) (length cats) mask ->
  legal_responses (length thetas) cats mask data x ->
  loglik_of (length thetas) (length cats) mask (some3 (map f thetas)) x (fun red => prob_log_likelihood nanl M red data (some3 (map f thetas)) mask).
Proof.
  intros HF Hd Hm Hx. apply (prob_loglik nanl _ _ _ _ _ _ _ (fun n i => table_p (nth n thetas []) i (x n i))); auto.
  - unfold M. now apply list_max_pos.
  - split.
    + split; [unfold some3; now rewrite !map_length|]. apply Forall_forall. intros o Ho. unfold some3 in Ho. rewrite map_map in Ho. apply in_map_iff in Ho as (a & <- & Ha). rewrite map_length. rewrite Forall_forall in HF. apply (Hitems a (HF a Ha)).
    + intros n i r Er. unfold at2, some3 in Er. rewrite map_map, nth_error_map in Er. destruct (nth_error thetas n) as [t|] eqn:Et; [|discriminate]. cbn [option_map] in Er. rewrite nth_error_map in Er.
      destruct (nth_error (f t) i) as [q|] eqn:Eq; [|discriminate]. cbn [option_map] in Er. injection Er as <-. rewrite map_length. rewrite Forall_forall in HF. destruct (Hitems t (HF t (nth_error_In _ _ Et))) as [_ L]. rewrite Forall_forall in L. apply L. eapply nth_error_In; eauto.
  - now apply legal_responses_max.
  - intros n i Hn Hi E. destruct (P_Est2.legal_at _ _ _ _ _ n i Hx Hn Hi E) as (K & EK & HxK). assert (Et : nth_error thetas n = Some (nth n thetas [])) by (apply nth_error_nth_lt; exact Hn). split.
    + apply (table_at thetas n (nth n thetas []) i K); auto.
    + apply table_pos; [rewrite Forall_forall in HF; apply HF; eapply nth_error_In; eauto|now rewrite (nth_error_nth _ _ O EK)].
Qed.
Lemma table_have_probabilities : has_probabilities m table_p.
Proof.
  split; [intros t i k Ht Hk; apply Rlt_le; now apply table_pos|]. intros thetas data mask x HF Hd Hk Hx. unfold em_items in *. fold cats in Hd, Hk, Hx.
  eexists. destruct (from_loglik thetas _ mask _ x _ table_p (table_loglik thetas data mask x HF Hd Hk Hx)) as (l & El & Hl & Hcl).
  { intros n t i Et Hi Em. assert (Hn : (n < length thetas)%nat) by (apply nth_error_Some; congruence). destruct (P_Est2.legal_at _ _ _ _ _ n i Hx Hn Hi Em) as (K & EK & HxK). now apply (table_at thetas n t i K). }
  exists l. split; [now apply Hf|]. rewrite Hll, wide_rows_id. cbn [cb_rows w_rows]. fold cats. auto.
Qed.
Lemma table_rowwise : rowwise m.
Proof. right. exists (length cats), M, (fun t => map (map Some) (f t)). intros thetas HF. rewrite Hf by exact HF. unfold some3. now rewrite map_map. Qed.
Lemma table_sum : has_sum m table_p.
Proof.
  intros thetas data HF HL HDt. pose proof (legal_data_rect _ _ HDt) as HR. pose proof (legal_data_responses _ _ HDt) as HX. fold cats in HR, HX. rewrite <- HL in HR, HX.
  assert (HM : rect_opt (length thetas) (length cats) (Some (map (map missing_cell) data))).
  { split; [now rewrite map_length, (proj1 HR)|]. apply Forall_forall. intros r Hr. apply in_map_iff in Hr as (r0 & <- & Hr0). rewrite map_length. destruct HR as [_ HR]. rewrite Forall_forall in HR. now apply HR. }
  eexists. split; [now apply Hf|]. apply (sum_from_loglik m table_p (some3 (map f thetas))); auto.
  - apply table_have_probabilities.
  - intros. now apply table_pos.
  - pose proof (table_loglik thetas data _ _ HF HR HM HX) as (q & H1 & H2 & l & H3 & H4). exists q. unfold em_items. fold cats.
    split; [exact H1|]. split; [rewrite Hll; exact H2|]. exists l. split; [rewrite Hll; exact H3|exact H4].
Qed.
End Tables.

(** ** The two spline models, respondent by respondent *)
Lemma map_over_seq {A B} (l : list A) (d : A) (f : nat -> B) (g : A -> B) : (forall r a, nth_error l r = Some a -> f r = g a) -> map f (seq 0 (length l)) = map g l.
Proof.
  intro H. apply nth_error_ext. intro n. rewrite !nth_error_map. destruct (nth_error l n) as [a|] eqn:E.
  - rewrite nth_error_seq by (apply nth_error_Some; congruence). cbn. now rewrite (H n a E).
  - apply nth_error_None in E. assert (X : nth_error (seq 0 (length l)) n = None) by (apply nth_error_None; now rewrite seq_length). now rewrite X.
Qed.
Definition basis_at (degree : nat) (knots : list R) (t : list R) (d b : nat) : R := bbasis (fun j => nth j knots 0) degree b (logistic (nth d t 0)).
Lemma bs_logits_ext m B B' : (forall d b, (d < bs_lv m)%nat -> (b < bs_n m)%nat -> B d b = B' d b) -> (bs_by_item m = true \/ (0 < bs_lv m)%nat) -> bs_logits m B = bs_logits m B'.
Proof.
  intros H _. unfold bs_logits. cbv zeta. apply map_ext. intro i. apply map_ext. intro k. destruct (nth _ _ false); [reflexivity|]. do 2 f_equal.
  unfold bs_value. destruct (bs_by_item m); apply sumn_ext; intros d Hd.
  - f_equal. apply sumn_ext. intros b Hb. now rewrite H.
  - apply sumn_ext. intros c _. apply sumn_ext. intros b Hb. now rewrite H.
Qed.
Definition bs_row (m : bspl) (t : list R) : list (list ext) := bs_logits m (basis_at (bs_degree m) (bs_knots m) t).
Lemma bs_forward_rows m thetas : bs_ok m -> thetas <> [] -> Forall (fun t => length t = bs_lv m) thetas -> bs_forward m thetas = Ok (map (bs_row m) thetas).
Proof.
  intros (H1 & H2 & H3 & H4 & H5 & H6) Hne HF. destruct (spline_basis_ok (bs_lv m) (bs_degree m) (bs_knots m) thetas H1 Hne HF) as (basis & Eb & Hl & Hv).
  unfold bs_forward. rewrite H6, Eb. cbn [bind]. unfold bs_evaluate.
  replace (negb (bs_by_item m) && negb (bs_lv m =? 1)%nat)%bool with false by (destruct H3 as [-> | ->]; [reflexivity|now rewrite andb_false_r]). f_equal. rewrite Hl.
  apply (map_over_seq thetas []). intros r t Hr. unfold bs_row. apply bs_logits_ext; [|auto]. intros d b Hd Hb. unfold basis_at. now apply Hv.
Qed.
Lemma bs_row_at m t i K k : bs_ok m -> nth_error (bs_cats m) i = Some K -> (k < bs_max m)%nat ->
  nth_error (concat (bs_row m t)) (i * bs_max m + k) = Some (if (k <? K)%nat then Fin (bspline_logit m t i k) else NInf).
Proof.
  intros Hm Hi Hk. pose proof (bs_logits_at m (basis_at (bs_degree m) (bs_knots m) t) t i k K Hm Hi Hk (fun d b _ _ => eq_refl)) as E. unfold at2 in E. fold (bs_row m t) in E.
  destruct (nth_error (bs_row m t) i) as [row|] eqn:Er; [|discriminate]. rewrite (nth_error_concat_const _ (bs_max m) i k row); auto.
  apply Forall_forall. intros l Hl. unfold bs_row, bs_logits in Hl. apply in_map_iff in Hl as (j & <- & _). now rewrite map_length, seq_length.
Qed.
Lemma bs_row_length m t : length (concat (bs_row m t)) = (bs_items m * bs_max m)%nat.
Proof.
  rewrite (length_concat_const _ (bs_max m)).
  - unfold bs_row, bs_logits. now rewrite map_length, seq_length.
  - apply Forall_forall. intros l Hl. unfold bs_row, bs_logits in Hl. apply in_map_iff in Hl as (j & <- & _). now rewrite map_length, seq_length.
Qed.
Definition ss_row (m : sspl) (t : list R) : list (list R) :=
  mapi (fun i K => surprisal_probabilities (surprisal (ss_lv m) (n_bases (ss_degree m) (ss_knots m)) (list_max (ss_cats m)) K (ss_rel m i) (basis_at (ss_degree m) (ss_knots m) t) (ss_coef m i))) (ss_cats m).
Lemma ss_forward_rows m thetas : ss_basis m = None -> (0 < ss_lv m)%nat -> thetas <> [] -> Forall (fun t => length t = ss_lv m) thetas -> ss_forward m thetas = Ok (map (ss_row m) thetas).
Proof.
  intros Hb Hlv Hne HF. destruct (spline_basis_ok (ss_lv m) (ss_degree m) (ss_knots m) thetas Hlv Hne HF) as (basis & Eb & Hl & Hv).
  unfold ss_forward. rewrite Hb, Eb. cbn [rmap]. f_equal. unfold ss_evaluate. rewrite Hl. apply (map_over_seq thetas []). intros r t Hr. unfold ss_row.
  apply nth_error_ext. intro i. rewrite !nth_error_mapi. destruct (nth_error (ss_cats m) i) as [K|]; [|reflexivity]. cbn [option_map]. do 2 f_equal. apply surprisal_ext. intros d b Hd Hb'. unfold basis_at. now apply Hv.
Qed.
