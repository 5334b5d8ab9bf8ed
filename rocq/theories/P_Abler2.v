(** Sum scores of abler respondents. *)
From Verif Require Import Base BaseFacts RBase RFacts M_Data M_Logit M_Lik M_Est M_Stat P_Logit P_Logit2 P_Est1 P_Est2 P_Opt3 P_True1 P_Cons1 P_Pred P_Stat1 P_Stat2 P_Suff1 P_Suff2 P_Row S_Logit S_Lik S_Est S_Stat S_True S_Pop S_Rao S_Suff S_Abler P_Abler.
Import List.
Local Open Scope R_scope.

(** The rows of probabilities are those of [p] at [z]. *)
Definition rows_of_p (cats : list nat) (p : list R -> nat -> nat -> R) (z : R) (probs : list (list R)) : Prop :=
  length probs = length cats /\ forall i, (i < length cats)%nat -> (nth i cats O <= length (nth i probs []))%nat /\ forall k, (k < nth i cats O)%nat -> nth k (nth i probs []) 0 = p [z] i k.
Lemma total_head k row : row_total (Some (Z.of_nat k) :: row) = (k + row_total row)%nat.
Proof. unfold row_total. cbn [map]. rewrite answer_of_nat. reflexivity. Qed.
Lemma etotal_answers cats : forall p z probs g, rows_of_p cats p z probs -> etotal (itemlist probs cats) g = on_answers cats (all_seen cats) p [z] (fun row => g (row_total row)).
Proof.
  induction cats as [|K cats IH]; intros p z [|q probs] g [HL H]; try discriminate; [now rewrite answers_empty|]. cbn [length] in HL. unfold itemlist, all_seen. cbn [combine map etotal]. fold (itemlist probs cats) (all_seen cats). rewrite answers_seen.
  apply sumn_ext. intros k Hk. destruct (H O ltac:(cbn; lia)) as [_ H0]. cbn [nth] in H0. rewrite H0 by exact Hk. f_equal. rewrite (IH (shift p) z probs).
  - apply answers_ext. intros row _. now rewrite total_head.
  - split; [lia|]. intros i Hi. exact (H (S i) ltac:(cbn [length]; lia)).
Qed.
Lemma rows_fit cats p z probs : all_ordered cats p -> rows_of_p cats p z probs -> fits probs cats.
Proof.
  revert p probs; induction cats as [|K cats IH]; intros p [|q probs] HO [HL H]; try discriminate; [constructor|]. cbn [length] in HL. constructor.
  - destruct (HO O ltac:(cbn; lia)) as [H1 _]. destruct (H O ltac:(cbn; lia)) as [H2 _]. cbn [nth] in *. auto.
  - apply (IH (shift p)); [now apply ordered_tail with (K := K)|]. split; [lia|]. intros i Hi. exact (H (S i) ltac:(cbn [length]; lia)).
Qed.
(** Probability of a sum score of [s] or more. *)
Lemma score_tail cats p z probs s L : all_ordered cats p -> rows_of_p cats p z probs -> L = (list_sum cats - length cats + 1)%nat ->
  sumn (L - s) (fun j => score_probability probs cats (s + j)) = on_answers cats (all_seen cats) p [z] (fun row => if (s <=? row_total row)%nat then 1 else 0).
Proof.
  intros HO HR EL. pose proof (rows_fit _ _ _ _ HO HR) as HF. rewrite (sumn_ext _ _ (fun j => etotal (itemlist probs cats) (hit (s + j)))) by (intros; apply score_probability_etotal, fits_length; assumption).
  rewrite <- etotal_sumn. rewrite (etotal_range _ _ (fun t => if (s <=? t)%nat then 1 else 0)); [now apply (etotal_answers cats p z probs (fun t => if (s <=? t)%nat then 1 else 0))|].
  intros t Ht. rewrite maxima_sum in Ht by assumption. destruct (Nat.leb_spec s t) as [L1|L1].
  - rewrite (sumn_single _ (t - s)) by (lia || (intros j Hj Hj'; unfold hit; destruct (Nat.eqb_spec t (s + j)); [lia|reflexivity])). unfold hit. replace (s + (t - s))%nat with t by lia. now rewrite Nat.eqb_refl.
  - apply sumn_zero. intros j Hj. unfold hit. destruct (Nat.eqb_spec t (s + j)); [lia|reflexivity].
Qed.
Lemma total_rises cats : forall seen row row', length seen = length cats -> In row (possible_rows cats seen) -> In row' (possible_rows cats seen) -> all_no_worse cats row row' -> (row_total row <= row_total row')%nat.
Proof.
  induction cats as [|K cats IH]; intros [|b seen] row row' HL Hr Hr' HN; try discriminate; [destruct Hr as [<-|[]], Hr' as [<-|[]]; lia|]. cbn [length] in HL.
  apply row_cases in Hr as (c & r & -> & Hr & Hc). apply row_cases in Hr' as (c' & r' & -> & Hr' & Hc'). apply no_worse_cons in HN as [HN0 HN]. specialize (IH seen r r' ltac:(lia) Hr Hr' HN).
  destruct b; [|subst c c'; exact IH]. destruct Hc as (k & Hk & ->), Hc' as (k' & Hk' & ->). rewrite !total_head. rewrite !answer_of_nat in HN0. inversion HN0; subst; lia.
Qed.
Lemma reach_rises cats seen s : length seen = length cats -> rises cats seen (fun row => if (s <=? row_total row)%nat then 1 else 0).
Proof. intros HL row row' Hr Hr' HN. pose proof (total_rises cats seen row row' HL Hr Hr' HN). destruct (Nat.leb_spec s (row_total row)); destruct (Nat.leb_spec s (row_total row')); try lra; lia. Qed.
(** The worst and the best answers. *)
Lemma extreme_rows cats : Forall (fun K => (1 <= K)%nat) cats -> exists row row', In row (possible_rows cats (all_seen cats)) /\ In row' (possible_rows cats (all_seen cats)) /\ row_total row = O /\ row_total row' = (list_sum cats - length cats)%nat /\ (length cats <= list_sum cats)%nat.
Proof.
  induction 1 as [|K cats HK _ (row & row' & Hr & Hr' & E & E' & L)]; [exists [], []; cbn; auto|]. exists (Some (Z.of_nat 0) :: row), (Some (Z.of_nat (K - 1)) :: row'). unfold all_seen. cbn [map]. fold (all_seen cats).
  split; [apply row_seen; [lia|exact Hr]|]. split; [apply row_seen; [lia|exact Hr']|]. rewrite !total_head, E, E'. change (list_sum (K :: cats)) with (K + list_sum cats)%nat. cbn [length]. lia.
Qed.
Lemma reach_varies cats s : Forall (fun K => (1 <= K)%nat) cats -> (1 <= s <= list_sum cats - length cats)%nat -> varies cats (all_seen cats) (fun row => if (s <=? row_total row)%nat then 1 else 0).
Proof.
  intros HC Hs. destruct (extreme_rows cats HC) as (row & row' & Hr & Hr' & E & E' & _). exists row, row'. split; [exact Hr|]. split; [exact Hr'|]. rewrite E, E'. destruct (Nat.leb_spec s 0); [lia|]. destruct (Nat.leb_spec s (list_sum cats - length cats)); [lra|lia].
Qed.
Lemma ordered_cats cats p : all_ordered cats p -> Forall (fun K => (1 <= K)%nat) cats.
Proof. intro H. apply Forall_forall. intros K HK. apply (In_nth _ _ O) in HK as (i & Hi & <-). now apply H. Qed.
Lemma seen_length (cats : list nat) : length (all_seen cats) = length cats. Proof. apply map_length. Qed.
Lemma skip_map (f : nat -> R) L s : rsum (skipn s (map f (seq 0 L))) = sumn (L - s) (fun j => f (s + j)%nat).
Proof.
  rewrite rsum_nth, skipn_length, map_length, seq_length. apply sumn_ext. intros j Hj. rewrite nth_skipn_add. rewrite (nth_indep _ 0 (f 0%nat)) by (rewrite map_length, seq_length; lia). rewrite map_nth, seq_nth by lia. reflexivity.
Qed.
(** The tail of the mixture. *)
Lemma mixture_tail cats p s L : all_ordered cats p -> L = (list_sum cats - length cats + 1)%nat -> forall zs rows, Forall2 (rows_of_p cats p) zs rows -> forall weights,
  sumn (L - s) (fun j => mixture weights rows cats (s + j)) = rsum (zip_with (fun w z => w * on_answers cats (all_seen cats) p [z] (fun row => if (s <=? row_total row)%nat then 1 else 0)) weights zs).
Proof.
  intros HO EL. unfold mixture. induction 1 as [|z probs zs rows HR _ IH]; intros [|w ws]; try (cbn [zip_with rsum]; apply sumn_0).
  cbn [zip_with rsum]. rewrite sumn_plus. rewrite IH. rewrite sumn_scal. now rewrite (score_tail cats p z probs s L HO HR EL).
Qed.
Lemma tails_le cats p s : all_ordered cats p -> forall zs zs', Forall2 Rle zs zs' -> forall weights, Forall (fun w => 0 <= w) weights ->
  let T := fun z => on_answers cats (all_seen cats) p [z] (fun row => if (s <=? row_total row)%nat then 1 else 0) in
  rsum (zip_with (fun w z => w * T z) weights zs) <= rsum (zip_with (fun w z => w * T z) weights zs') /\
  ((1 <= s <= list_sum cats - length cats)%nat -> (exists r w z z', nth_error weights r = Some w /\ nth_error zs r = Some z /\ nth_error zs' r = Some z' /\ 0 < w /\ z < z') ->
   rsum (zip_with (fun w z => w * T z) weights zs) < rsum (zip_with (fun w z => w * T z) weights zs')).
Proof.
  intros HO zs zs' HZ weights HW T. pose proof (dominates cats (all_seen cats) p (fun row => if (s <=? row_total row)%nat then 1 else 0)) as D.
  assert (M : forall z z', z <= z' -> T z <= T z') by (intros z z' H; apply D; auto; [apply seen_length|apply reach_rises, seen_length]).
  assert (ST : (1 <= s <= list_sum cats - length cats)%nat -> forall z z', z < z' -> T z < T z').
  { intros Hs z z' H. destruct (D z z' (seen_length cats) HO (reach_rises _ _ _ (seen_length cats)) ltac:(lra)) as [[|E] D2]; [assumption|]. exfalso. destruct (reach_varies cats s (ordered_cats _ _ HO) Hs) as (row & row' & Hr & Hr' & N). elim N. exact (D2 H E row row' Hr Hr'). }
  clearbody T. clear D. revert weights HW. induction HZ as [|z z' zs zs' Hz _ IH]; intros [|w ws] HW; try (cbn [zip_with rsum]; split; [lra|]; intros _ (r & w0 & z0 & z1 & E1 & E2 & _); destruct r; discriminate).
  cbn [zip_with rsum]. pose proof (Forall_inv HW) as Hw. destruct (IH ws (Forall_inv_tail HW)) as [I1 I2]. assert (H0 : w * T z <= w * T z') by (apply Rmult_le_compat_l; auto). split; [lra|].
  intros Hs ([|r] & w0 & z0 & z1 & E1 & E2 & E3 & P & L); cbn [nth_error] in E1, E2, E3.
  - injection E1 as <-. injection E2 as <-. injection E3 as <-. assert (w * T z < w * T z') by (apply Rmult_lt_compat_l; auto). lra.
  - assert (rsum (zip_with (fun w z => w * T z) ws zs) < rsum (zip_with (fun w z => w * T z) ws zs')) by (apply I2; [exact Hs|]; exists r, w0, z0, z1; auto). lra.
Qed.
(** The table a model gives. *)
Lemma table_rows cats M probs q p zs rows : row_model 1 cats M probs q -> (forall z i k, (i < length cats)%nat -> (k < nth i cats O)%nat -> q [z] i k = p [z] i k) ->
  probs (map (fun z => [z]) zs) = some3 rows -> Forall2 (rows_of_p cats p) zs rows.
Proof.
  intros HR HQ E. assert (HF : Forall (fun t : list R => length t = 1%nat) (map (fun z => [z]) zs)) by (apply Forall_forall; intros t Ht; apply in_map_iff in Ht as (z & <- & _); reflexivity).
  rewrite (row_model_table 1 cats M probs q _ HR HF) in E. rewrite map_map in E. clear HF.
  assert (HM : forall z i, (i < length cats)%nat -> (nth i cats O <= M)%nat) by (intros z i Hi; apply (row_model_distribution 1 cats M probs q [z] i (nth i cats O) HR eq_refl); now apply nth_error_nth_lt).
  revert rows E; induction zs as [|z zs IH]; intros [|r rows] E; try discriminate; constructor; [|apply IH; cbn in E; injection E; auto].
  unfold some3 in E. cbn [map] in E. injection E as E _. split; [apply (f_equal (@length _)) in E; rewrite !map_length, seq_length in E; lia|].
  intros i Hi. apply (f_equal (fun l => nth_error l i)) in E. rewrite !nth_error_map, nth_error_seq in E by exact Hi. destruct (nth_error r i) as [c|] eqn:Ec; [|discriminate]. cbn [option_map Nat.add] in E. injection E as E.
  rewrite (nth_error_nth r i [] Ec). pose proof (HM z i Hi). assert (Lc : length c = M) by (apply (f_equal (@length _)) in E; rewrite !map_length, seq_length in E; lia). split; [lia|].
  intros k Hk. rewrite <- HQ by assumption. apply (f_equal (fun l => nth_error l k)) in E. rewrite !nth_error_map, nth_error_seq in E by lia. rewrite (nth_error_nth_lt c k 0) in E by lia. cbn in E. congruence.
Qed.
