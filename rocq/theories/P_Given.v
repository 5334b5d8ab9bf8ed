(** What answers tell beyond the sum score. *)
From Verif Require Import Base BaseFacts RBase RFacts M_Data M_Logit M_Lik M_Est M_Stat P_Logit P_Logit2 P_Est1 P_Est2 P_True1 P_Stat1 P_Suff1 P_Suff2 P_Abler P_Abler2 P_Lik5 P_Info3 S_Logit S_Lik S_Est S_Stat S_True S_Rao S_Suff S_Abler S_Given.
Import List.
Local Open Scope R_scope.

Lemma possible_items cats : forall seen row row', length seen = length cats -> In row (possible_rows cats seen) -> In row' (possible_rows cats seen) -> same_items row row'.
Proof.
  induction cats as [|K cats IH]; intros [|b seen] row row' HL Hr Hr'; try discriminate; [destruct Hr as [<-|[]], Hr' as [<-|[]]; intro; reflexivity|]. cbn [length] in HL.
  apply row_cases in Hr as (c & r & -> & Hr & Hc). apply row_cases in Hr' as (c' & r' & -> & Hr' & Hc'). specialize (IH seen r r' ltac:(lia) Hr Hr'). intros [|i]; [|apply IH]. cbn [nth].
  destruct b; [destruct Hc as (k & _ & ->), Hc' as (k' & _ & ->); rewrite !answer_of_nat; split; discriminate|now subst].
Qed.
Lemma scoresP lv w s row : scores lv w s row = true <-> forall d, (d < lv)%nat -> total w row d = s d.
Proof.
  unfold scores. rewrite forallb_forall. split; intros H d Hd.
  - specialize (H d ltac:(apply in_seq; lia)). destruct (Req_EM_T (total w row d) (s d)); [assumption|discriminate].
  - apply in_seq in Hd. destruct (Req_EM_T (total w row d) (s d)) as [|N]; [reflexivity|]. exfalso. apply N, H. lia.
Qed.
(** Rows with equal totals have proportional likelihoods. *)
Lemma proportional m p w row row' : weights_of m p w -> legal_row (em_cats m) row -> legal_row (em_cats m) row' -> same_items row row' -> same_totals (em_lv m) w row row' ->
  exists c, 0 < c /\ forall t, length t = em_lv m -> likelihood p t row' = c * likelihood p t row.
Proof.
  intros Hw H H' HS HT. destruct (weights_ratio m p w row row' Hw H H' HS) as (c & Hc & E). exists c. split; [exact Hc|]. intros t Ht. rewrite (E t Ht). rewrite (sumn_ext _ _ (fun _ => 0)) by (intros d Hd; rewrite (HT d Hd); ring). rewrite P_Stat1.sumn_zero by reflexivity. rewrite exp_0. ring.
Qed.
Lemma zeros_length lv : length (repeat 0 lv) = lv. Proof. apply repeat_length. Qed.
Lemma conditional m p w seen s row0 : weights_of m p w -> length seen = length (em_cats m) -> In row0 (possible_rows (em_cats m) seen) -> scores (em_lv m) w s row0 = true ->
  exists gamma : (list cell -> R) -> R, 0 < gamma (fun _ => 1) /\ forall f t, length t = em_lv m -> on_answers (em_cats m) seen p t (fun row => if scores (em_lv m) w s row then f row else 0) = gamma f * likelihood p t row0.
Proof.
  intros Hw HL Hin Hs. set (t0 := repeat 0 (em_lv m)). assert (P0 : 0 < likelihood p t0 row0) by (apply (library_likelihood m p); [now apply weights_library with w|now apply rows_legal with seen]).
  exists (fun f => rsum (map (fun row => likelihood p t0 row / likelihood p t0 row0 * (if scores (em_lv m) w s row then f row else 0)) (possible_rows (em_cats m) seen))). split.
  - assert (G : forall l, (forall row, In row l -> In row (possible_rows (em_cats m) seen)) -> 0 <= rsum (map (fun row => likelihood p t0 row / likelihood p t0 row0 * (if scores (em_lv m) w s row then 1 else 0)) l) /\ (In row0 l -> 0 < rsum (map (fun row => likelihood p t0 row / likelihood p t0 row0 * (if scores (em_lv m) w s row then 1 else 0)) l))).
    { induction l as [|row l IH]; intro HI; [split; [cbn; lra|intros []]|]. destruct (IH ltac:(intros; apply HI; now right)) as [I1 I2]. cbn [map rsum].
      assert (PR : 0 < likelihood p t0 row / likelihood p t0 row0) by (apply Rdiv_lt_0_compat; [apply (library_likelihood m p); [now apply weights_library with w|apply rows_legal with seen; [exact HL|apply HI; now left]]|exact P0]).
      assert (N : 0 <= likelihood p t0 row / likelihood p t0 row0 * (if scores (em_lv m) w s row then 1 else 0)) by (destruct (scores (em_lv m) w s row); lra). split; [lra|]. intros [<-|HIn]; [|specialize (I2 HIn); lra]. rewrite Hs in *. lra. }
    apply (G (possible_rows (em_cats m) seen)); auto.
  - intros f t Ht. unfold on_answers. rewrite Rmult_comm, <- rsum_map_scal. f_equal. apply map_ext_in. intros row Hr. destruct (scores (em_lv m) w s row) eqn:E; [|ring].
    destruct (proportional m p w row0 row Hw ltac:(now apply rows_legal with seen) ltac:(now apply rows_legal with seen) ltac:(now apply possible_items with (cats := em_cats m) (seen := seen))) as (c & Hc & EC).
    { intros d Hd. rewrite (proj1 (scoresP _ _ _ _) E d Hd). exact (proj1 (scoresP _ _ _ _) Hs d Hd). }
    rewrite (EC t Ht), (EC t0 (zeros_length _)). field. lra.
Qed.
Lemma among_scal people c h : among people (fun t => c * h t) = c * among people h.
Proof. unfold among. rewrite <- rsum_map_scal. f_equal. apply map_ext. intros [a t]. cbn [fst snd]. ring. Qed.
Lemma among_ext people g h : (forall x, In x people -> g (snd x) = h (snd x)) -> among people g = among people h.
Proof. intro H. unfold among. f_equal. apply map_ext_in. intros x Hx. now rewrite (H x Hx). Qed.
Lemma among_pos people h : Forall (fun x => 0 <= fst x) people -> (forall x, In x people -> 0 < h (snd x)) -> (exists x, In x people /\ 0 < fst x) -> 0 < among people h.
Proof.
  unfold among. induction people as [|x l IH]; intros HN HP (y & Hy & Py); [destruct Hy|]. pose proof (Forall_inv HN) as N. cbv beta in N. pose proof (HP x (or_introl eq_refl)) as PX. cbn [map rsum].
  assert (NL : 0 <= rsum (map (fun x => fst x * h (snd x)) l)). { clear IH Hy Py. apply Forall_inv_tail in HN. assert (forall z, In z l -> 0 < h (snd z)) as HP' by (intros; apply HP; now right). clear HP. induction l as [|z l IH]; [cbn; lra|]. pose proof (Forall_inv HN) as N'. cbv beta in N'. pose proof (HP' z (or_introl eq_refl)). cbn [map rsum]. specialize (IH (Forall_inv_tail HN) ltac:(intros; apply HP'; now right)). nra. }
  destruct Hy as [->|Hy]; [nra|]. specialize (IH (Forall_inv_tail HN) ltac:(intros; apply HP; now right) ltac:(eauto)). nra.
Qed.
(** ** Odds *)
Lemma odds z : logistic z / (1 - logistic z) = exp z.
Proof. rewrite logistic_exp. pose proof (exp_pos z). field. lra. Qed.
Lemma guess_odds c z : 0 < c < 1 -> (c + (1 - c) * logistic z) / (1 - (c + (1 - c) * logistic z)) = (c + exp z) / (1 - c).
Proof.
  intro Hc. rewrite logistic_exp. pose proof (exp_pos z). replace (c + (1 - c) * (exp z / (1 + exp z))) with ((c + exp z) / (1 + exp z)) by (field; lra). replace (1 - (c + exp z) / (1 + exp z)) with ((1 - c) / (1 + exp z)) by (field; lra). field. lra.
Qed.
(** ** Sum scores when all slopes are the same *)
Lemma raw_totals cats a : forall (w : nat -> nat -> nat -> R) row, In row (possible_rows cats (all_seen cats)) -> (forall i k, (i < length cats)%nat -> (k < nth i cats O)%nat -> w i k O = INR k * a) -> total w row O = INR (row_total row) * a.
Proof.
  induction cats as [|K cats IH]; intros w row Hr Hw; [destruct Hr as [<-|[]]; unfold total, row_total; cbn; ring|]. unfold all_seen in Hr. cbn [map] in Hr. fold (all_seen cats) in Hr. apply row_cases in Hr as (c & r & -> & Hr & (k & Hk & ->)). rewrite total_cons, answer_of_nat, total_head, plus_INR, (IH (fun i k d => w (S i) k d) r Hr), (Hw O k); cbn [length nth]; [ring|lia|exact Hk|]. intros i j Hi Hj. apply (Hw (S i) j); cbn [length nth]; [lia|exact Hj].
Qed.
Lemma raw_scores m p w a : weights_of m p w -> em_lv m = 1%nat -> (forall i k, (i < length (em_cats m))%nat -> (k < nth i (em_cats m) O)%nat -> w i k O = INR k * a) -> Forall (fun K => (1 <= K)%nat) (em_cats m) ->
  exists (gamma : nat -> R) (L : R -> R), forall z s, on_answers (em_cats m) (all_seen (em_cats m)) p [z] (fun row => hit s (row_total row)) = gamma s * exp (INR s * a * z) * L z.
Proof.
  intros Hw Hlv Ha HC. destruct (extreme_rows (em_cats m) HC) as (row0 & _ & H0 & _ & T0 & _). set (cats := em_cats m) in *. pose proof (seen_length cats) as SL.
  exists (fun s => rsum (map (fun row => likelihood p [0] row / likelihood p [0] row0 * hit s (row_total row)) (possible_rows cats (all_seen cats)))), (fun z => likelihood p [z] row0).
  intros z s. unfold on_answers. rewrite Rmult_assoc, Rmult_comm, <- rsum_map_scal. f_equal. apply map_ext_in. intros row Hr. unfold hit. destruct (Nat.eqb_spec (row_total row) s) as [E|]; [|ring].
  assert (L0 : legal_row cats row0) by now apply rows_legal with (all_seen cats). assert (LR : legal_row cats row) by now apply rows_legal with (all_seen cats).
  assert (P0 : 0 < likelihood p [0] row0) by (apply (library_likelihood m p); [now apply weights_library with w|exact L0]).
  destruct (weights_ratio m p w row0 row Hw L0 LR ltac:(now apply possible_items with (cats := cats) (seen := all_seen cats))) as (c & Hc & EC). rewrite Hlv in EC.
  rewrite (EC [z] eq_refl), (EC [0] eq_refl). cbn [sumn nth]. rewrite (raw_totals cats a w row Hr Ha), (raw_totals cats a w row0 H0 Ha), T0, E. cbn [INR]. replace (0 + (INR s * a - 0 * a) * z) with (INR s * a * z) by ring. replace (0 + (INR s * a - 0 * a) * 0) with 0 by ring. rewrite exp_0. field. lra.
Qed.
