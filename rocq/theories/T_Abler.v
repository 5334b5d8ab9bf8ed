(** Property C137: abler respondents do better on every score, and the answers of a population are associated. *)
From Verif Require T_Est.
From Verif Require Import Base BaseFacts RBase RFacts M_Data M_Logit M_Lik M_Est M_Stat P_Logit P_Logit2 P_Est1 P_Est2 P_Opt3 P_True1 P_Cons1 P_Pred P_Stat1 P_Stat2 P_Suff1 P_Suff2 P_Row P_Pop6 S_Logit S_Lik S_Est S_Stat S_True S_Pop S_Opt S_Rao S_Suff S_Abler P_Abler P_Abler2 T_Suff.
Import List.
Local Open Scope R_scope.

Lemma upward_all m p : upward m p -> all_ordered (em_cats m) p.
Proof. intros H i Hi. now apply upward_ordered with (m := m). Qed.

(** One latent variable, positive slopes.  A score that better answers never lower is larger on average for an abler
    respondent, whatever items are answered, and reaches every limit with a larger probability. *)
Theorem C137_dominates : forall m p seen f x y,
  upward m p -> length seen = length (em_cats m) -> rises (em_cats m) seen f -> x < y ->
  on_answers (em_cats m) seen p [x] f <= on_answers (em_cats m) seen p [y] f /\
  (varies (em_cats m) seen f -> on_answers (em_cats m) seen p [x] f < on_answers (em_cats m) seen p [y] f) /\
  forall c, reaches (em_cats m) seen p x f c <= reaches (em_cats m) seen p y f c /\
    (forall row row', In row (possible_rows (em_cats m) seen) -> In row' (possible_rows (em_cats m) seen) -> f row < c <= f row' ->
       reaches (em_cats m) seen p x f c < reaches (em_cats m) seen p y f c).
Proof.
  intros m p seen f x y Hu HL HR Hxy. pose proof (upward_all m p Hu) as HO.
  assert (ST : forall h, rises (em_cats m) seen h -> on_answers (em_cats m) seen p [x] h <= on_answers (em_cats m) seen p [y] h /\ (varies (em_cats m) seen h -> on_answers (em_cats m) seen p [x] h < on_answers (em_cats m) seen p [y] h)).
  { intros h Hh. destruct (dominates _ seen p h x y HL HO Hh ltac:(lra)) as [D1 D2]. split; [exact D1|]. intros (row & row' & Hr & Hr' & N). destruct D1 as [|E]; [assumption|]. elim N. now apply D2. }
  destruct (ST f HR) as [S1 S2]. split; [exact S1|]. split; [exact S2|]. intro c.
  assert (HRc : rises (em_cats m) seen (fun row => if Rle_dec c (f row) then 1 else 0)).
  { intros row row' Hr Hr' HN. pose proof (HR row row' Hr Hr' HN). destruct (Rle_dec c (f row)), (Rle_dec c (f row')); lra. }
  destruct (ST _ HRc) as [C1 C2]. split; [exact C1|]. intros row row' Hr Hr' [L1 L2]. apply C2. exists row, row'. split; [exact Hr|]. split; [exact Hr'|]. destruct (Rle_dec c (f row)), (Rle_dec c (f row')); lra.
Qed.
Print Assumptions C137_dominates.

(** The sum score distribution of sum_score_probabilities moves up when the quadrature points do: no sum score becomes
    harder to reach, and each becomes easier to reach if a point with a positive weight moved. *)
Theorem C137_sum_scores : forall m p M probs q zs zs' weights,
  upward m p -> row_model 1 (em_cats m) M probs q ->
  (forall z i k, (i < length (em_cats m))%nat -> (k < nth i (em_cats m) O)%nat -> q [z] i k = p [z] i k) ->
  Forall2 Rle zs zs' -> length weights = length zs -> Forall (fun w => 0 <= w) weights ->
  exists rows rows' ds ds',
    probs (map (fun z => [z]) zs) = some3 rows /\ probs (map (fun z => [z]) zs') = some3 rows' /\
    sum_score_probabilities None (em_cats m) rows weights = Ok ds /\ sum_score_probabilities None (em_cats m) rows' weights = Ok ds' /\
    forall s, rsum (skipn s ds) <= rsum (skipn s ds') /\
      ((1 <= s <= list_sum (em_cats m) - length (em_cats m))%nat ->
       (exists r w z z', nth_error weights r = Some w /\ nth_error zs r = Some z /\ nth_error zs' r = Some z' /\ 0 < w /\ z < z') ->
       rsum (skipn s ds) < rsum (skipn s ds')).
Proof.
  intros m p M probs q zs zs' weights Hu HR HQ HZ HL HW. pose proof (upward_all m p Hu) as HO. set (cats := em_cats m) in *.
  assert (T : forall l, exists rows, probs (map (fun z => [z]) l) = some3 rows).
  { intro l. exists (map (fun t => map (fun i => map (fun k => q t i k) (seq 0 M)) (seq 0 (length cats))) (map (fun z => [z]) l)). rewrite (row_model_table 1 cats M probs q _ HR).
    - unfold some3. rewrite (map_map _ (map (map Some))). apply map_ext. intro t. rewrite map_map. apply map_ext. intro i. now rewrite map_map.
    - apply Forall_forall. intros t Ht. apply in_map_iff in Ht as (z & <- & _). reflexivity. }
  destruct (T zs) as [rows E], (T zs') as [rows' E']. pose proof (table_rows cats M probs q p zs rows HR HQ E) as F. pose proof (table_rows cats M probs q p zs' rows' HR HQ E') as F'.
  assert (HC : cats <> []) by (intro X; destruct (upward_library m p Hu) as [Hl _]; destruct Hu; cbn in X; unfold p_items in *; cbn in *; try (rewrite X in *; cbn in *; lia); unfold cats in X; cbn in X; match goal with H : (0 < ?n)%nat |- _ => destruct n; [lia|discriminate] end).
  assert (FIT : forall l rs, Forall2 (rows_of_p cats p) l rs -> Forall (fun probs => fits probs cats) rs) by (intros l rs H; induction H; constructor; auto; now apply rows_fit with (p := p) (z := x)).
  assert (LEN : forall l rs, Forall2 (rows_of_p cats p) l rs -> length rs = length l) by (intros l rs H; induction H; cbn; auto).
  assert (LZ : length zs' = length zs) by (clear -HZ; induction HZ; cbn; auto).
  exists rows, rows'. do 2 eexists. split; [exact E|]. split; [exact E'|]. split; [apply ssp_plain; [exact HC|now apply FIT with zs|rewrite (LEN zs); auto]|]. split; [apply ssp_plain; [exact HC|now apply FIT with zs'|rewrite (LEN zs'); auto; lia]|].
  intro s. rewrite !skip_map. rewrite (mixture_tail cats p s _ HO eq_refl zs rows F), (mixture_tail cats p s _ HO eq_refl zs' rows' F'). exact (tails_le cats p s HO zs zs' HZ weights HW).
Qed.
Print Assumptions C137_sum_scores.

(** EAP scores, and ML or MAP scores (any maxima), of abler respondents. *)
Lemma strict_rises cats seen (score : list cell -> R) : length seen = length cats ->
  (forall row row', In row (possible_rows cats seen) -> In row' (possible_rows cats seen) -> all_no_worse cats row row' -> some_different cats row row' -> score row <= score row') -> rises cats seen score.
Proof. intros HL H row row' Hr Hr' HN. destruct (list_eq_dec cell_dec row row') as [->|N]; [lra|]. apply H; auto. now apply rows_differ with seen. Qed.
Lemma seen_varies cats : forall seen i p, length seen = length cats -> all_ordered cats p -> nth i seen false = true -> (2 <= nth i cats O)%nat ->
  exists row row', In row (possible_rows cats seen) /\ In row' (possible_rows cats seen) /\ all_no_worse cats row row' /\ row <> row'.
Proof.
  induction cats as [|K cats IH]; intros [|b seen] i p HL HO Hs HK; try discriminate; [destruct i; discriminate|]. cbn [length] in HL. destruct i as [|i]; cbn [nth] in Hs, HK.
  - subst b. destruct (rows_exist cats seen (shift p) ltac:(lia) (ordered_tail _ _ _ HO)) as [row Hr]. exists (Some (Z.of_nat 0) :: row), (Some (Z.of_nat 1) :: row). split; [apply row_seen; [lia|exact Hr]|]. split; [apply row_seen; [lia|exact Hr]|]. split; [|discriminate].
    apply no_worse_cons. rewrite !answer_of_nat. split; [apply nw_higher; lia|apply no_worse_refl].
  - destruct (IH seen i (shift p) ltac:(lia) (ordered_tail _ _ _ HO) Hs HK) as (row & row' & Hr & Hr' & HN & N). destruct b.
    + destruct (HO O ltac:(cbn; lia)) as [H1 _]. cbn [nth] in H1. exists (Some (Z.of_nat 0) :: row), (Some (Z.of_nat 0) :: row'). split; [apply row_seen; [lia|exact Hr]|]. split; [apply row_seen; [lia|exact Hr']|]. split; [apply no_worse_cons; split; [apply nw_same|exact HN]|congruence].
    + exists (None :: row), (None :: row'). split; [now apply row_unseen|]. split; [now apply row_unseen|]. split; [apply no_worse_cons; split; [apply nw_same|exact HN]|congruence].
Qed.
Theorem C137_eap_scores : forall mvn m p a points seen score,
  upward m p -> grid_spread m a points -> length seen = length (em_cats m) ->
  eap_theta_scores mvn m a points (Wide (em_items m) (possible_rows (em_cats m) seen)) = Ok (map (fun row => [Some (Fin (score row))]) (possible_rows (em_cats m) seen)) ->
  forall x y, x < y ->
  (forall c, reaches (em_cats m) seen p x score c <= reaches (em_cats m) seen p y score c) /\
  on_answers (em_cats m) seen p [x] score <= on_answers (em_cats m) seen p [y] score /\
  ((exists i, nth i seen false = true /\ (2 <= nth i (em_cats m) O)%nat) -> on_answers (em_cats m) seen p [x] score < on_answers (em_cats m) seen p [y] score).
Proof.
  intros mvn m p a points seen score Hu HG HL E x y Hxy. set (cats := em_cats m) in *.
  assert (LD : legal_data (em_cats m) (possible_rows cats seen)) by (apply Forall_forall; intros row Hr; now apply rows_legal with seen).
  assert (ST : forall row row', In row (possible_rows cats seen) -> In row' (possible_rows cats seen) -> all_no_worse cats row row' -> some_different cats row row' -> score row < score row').
  { intros row row' Hr Hr' HN HD. apply In_nth_error in Hr as [n Hn]. apply In_nth_error in Hr' as [n' Hn'].
    destruct (C106_better mvn m p a points _ _ n n' row row' Hu LD HG E Hn Hn' HN HD) as (s & s' & E1 & E2 & L). rewrite nth_error_map, Hn in E1. rewrite nth_error_map, Hn' in E2. cbn in E1, E2. congruence. }
  assert (HR : rises cats seen score) by (apply strict_rises; [exact HL|]; intros row row' Hr Hr' HN HD; left; now apply ST).
  destruct (C137_dominates m p seen score x y Hu HL HR Hxy) as (D1 & D2 & D3). split; [intro c; apply D3|]. split; [exact D1|]. intros (i & Hs & HK). apply D2.
  destruct (seen_varies cats seen i p HL (upward_all m p Hu) Hs HK) as (row & row' & Hr & Hr' & HN & N). exists row, row'. split; [exact Hr|]. split; [exact Hr'|]. apply Rlt_not_eq. apply ST; auto. now apply rows_differ with seen.
Qed.
Print Assumptions C137_eap_scores.
Theorem C137_max_scores : forall m p (prior : list R -> R) seen score,
  upward m p -> (forall z, 0 < prior [z]) -> length seen = length (em_cats m) ->
  (forall row, In row (possible_rows (em_cats m) seen) -> maximum 1 (fun t => prior t * likelihood p t row) [score row]) ->
  forall x y, x < y -> (forall c, reaches (em_cats m) seen p x score c <= reaches (em_cats m) seen p y score c) /\
    on_answers (em_cats m) seen p [x] score <= on_answers (em_cats m) seen p [y] score.
Proof.
  intros m p prior seen score Hu HP HL HM x y Hxy. assert (HR : rises (em_cats m) seen score).
  { apply strict_rises; [exact HL|]. intros row row' Hr Hr' HN HD. apply (C106_better_max m p prior row row'); auto; now apply rows_legal with seen. }
  destruct (C137_dominates m p seen score x y Hu HL HR Hxy) as (D1 & _ & D3). split; [intro c; apply D3|exact D1].
Qed.
Print Assumptions C137_max_scores.

(** In every population two scores that better answers never lower are positively correlated, strictly if neither is
    constant and the population has two different levels. *)
Theorem C137_associated : forall m p seen f g people,
  upward m p -> length seen = length (em_cats m) -> rises (em_cats m) seen f -> rises (em_cats m) seen g -> Forall (fun x => 0 <= fst x) people ->
  let mean h := in_population people (fun z => on_answers (em_cats m) seen p [z] h) in
  mean f * mean g <= in_population people (fun _ => 1) * mean (fun row => f row * g row) /\
  (varies (em_cats m) seen f -> varies (em_cats m) seen g -> (exists w z w' z', In (w, z) people /\ In (w', z') people /\ 0 < w /\ 0 < w' /\ z < z') ->
     mean f * mean g < in_population people (fun _ => 1) * mean (fun row => f row * g row)).
Proof. intros m p seen f g people Hu HL Hf Hg HW. apply associated; auto. now apply upward_all. Qed.
Print Assumptions C137_associated.

(** The score on one item is a rising score. *)
Lemma item_rises cats i : forall seen, length seen = length cats -> rises cats seen (score_on i).
Proof.
  intros seen HL row row' Hr Hr' HN. revert i seen row row' HL Hr Hr' HN. induction cats as [|K cats IH]; intros i [|b seen] row row' HL Hr Hr' HN; try discriminate; [destruct Hr as [<-|[]], Hr' as [<-|[]]; lra|]. cbn [length] in HL.
  apply row_cases in Hr as (c & r & -> & Hr & Hc). apply row_cases in Hr' as (c' & r' & -> & Hr' & Hc'). apply no_worse_cons in HN as [HN0 HN]. destruct i as [|i]; [|exact (IH i seen r r' ltac:(lia) Hr Hr' HN)].
  unfold score_on. cbn [nth]. destruct b; [|subst c c'; lra]. destruct Hc as (k & Hk & ->), Hc' as (k' & Hk' & ->). rewrite !answer_of_nat in *. apply le_INR. inversion HN0; subst; lia.
Qed.
(** Positive slopes are needed: a 2PL model with slopes 1 and -1, and as many respondents at -1 as at 1. *)
Definition opposed : tpl := {| tpl_lv := 1; tpl_free := [[true]; [true]]; tpl_w := [1; -1]; tpl_b := [0; 0] |}.
Lemma two_answers p z f : on_answers [2; 2]%nat [true; true] p [z] f =
  p [z] 0%nat 0%nat * (p [z] 1%nat 0%nat * f [Some 0%Z; Some 0%Z] + p [z] 1%nat 1%nat * f [Some 0%Z; Some 1%Z]) + p [z] 0%nat 1%nat * (p [z] 1%nat 0%nat * f [Some 1%Z; Some 0%Z] + p [z] 1%nat 1%nat * f [Some 1%Z; Some 1%Z]).
Proof. rewrite answers_seen. cbn [sumn]. rewrite !answers_seen. cbn [sumn]. rewrite !answers_empty. unfold shift. change (Z.of_nat 0) with 0%Z. change (Z.of_nat 1) with 1%Z. ring. Qed.
Lemma mirrored z : logistic (- z) = 1 - logistic z.
Proof. rewrite logistic_compl. unfold logistic. now rewrite Ropp_involutive. Qed.
Theorem C137_positive_slopes_needed :
  let mean h := in_population [(1, -1); (1, 1)] (fun z => on_answers [2; 2]%nat [true; true] (tpl_p opposed) [z] h) in
  in_population [(1, -1); (1, 1)] (fun _ => 1) * mean (fun row => score_on 0 row * score_on 1 row) < mean (score_on 0) * mean (score_on 1).
Proof.
  assert (P0 : forall z, tpl_p opposed [z] 0%nat 1%nat = logistic z /\ tpl_p opposed [z] 0%nat 0%nat = 1 - logistic z).
  { intro z. unfold tpl_p, predictor, slope. cbn. split; [f_equal; ring|f_equal; f_equal; ring]. }
  assert (P1 : forall z, tpl_p opposed [z] 1%nat 1%nat = 1 - logistic z /\ tpl_p opposed [z] 1%nat 0%nat = logistic z).
  { intro z. assert (logistic (- z) = 1 - logistic z) by apply mirrored. unfold tpl_p, predictor, slope. cbn. replace (0 + -1 * z + 0) with (- z) by ring. rewrite H. split; ring. }
  assert (N : logistic (-1) = 1 - logistic 1) by exact (mirrored 1).
  cbv zeta. unfold in_population. cbn [map rsum fst snd]. rewrite !two_answers. rewrite !(proj1 (P0 _)), !(proj2 (P0 _)), !(proj1 (P1 _)), !(proj2 (P1 _)). unfold score_on. cbn [nth answer]. change (0 =? -1)%Z with false. change (1 =? -1)%Z with false. cbv iota. change (Z.to_nat 0) with 0%nat. change (Z.to_nat 1) with 1%nat. cbn [INR]. rewrite N.
  assert (H : / 2 < logistic 1) by (replace (/ 2) with (logistic 0) by (unfold logistic; rewrite Ropp_0, exp_0; lra); apply logistic_incr; lra). pose proof (logistic_bounds 1). set (s := logistic 1) in *. nra.
Qed.
Print Assumptions C137_positive_slopes_needed.

(** The hypotheses met: two items of a 1PL model. *)
Example C137_nonvacuous : upward T_Est.ex_model (opl_p T_Est.ex_opl) /\
  (exists score, eap_theta_scores T_Est.ex_mvn T_Est.ex_model no_algorithm None (Wide 2 (possible_rows [2; 2]%nat [true; true])) = Ok (map (fun row => [Some (Fin (score row))]) (possible_rows [2; 2]%nat [true; true]))) /\
  grid_spread T_Est.ex_model no_algorithm None /\ rises [2; 2]%nat [true; true] (score_on 0) /\ varies [2; 2]%nat [true; true] (score_on 0) /\
  (exists m nanl, upward (of_sub (tpl_sub nanl m)) (tpl_p m) /\ row_model 1 (em_cats (of_sub (tpl_sub nanl m))) 2 (tpl_probabilities m) (P_Pop6.tpl_p m)).
Proof.
  assert (U : upward T_Est.ex_model (opl_p T_Est.ex_opl)) by (apply upward_opl; cbn; lia). split; [exact U|].
  assert (LD : legal_data (em_cats T_Est.ex_model) (possible_rows [2; 2]%nat [true; true])) by (apply Forall_forall; intros row Hr; now apply (rows_legal [2; 2]%nat [true; true])).
  destruct (T_Est.unfitted_grid T_Est.ex_mvn T_Est.ex_model (opl_p T_Est.ex_opl) _ None (possible_rows [2; 2]%nat [true; true]) T_Est.ex_library ltac:(cbn; lia) eq_refl ltac:(cbn; lia) ltac:(discriminate) LD) as (grid & _ & E).
  split; [exists (fun row => posterior_mean (opl_p T_Est.ex_opl) grid (fun t => exp (- (nth 0 t 0) ^ 2 / 2)) row 0); exact E|]. split; [split; [unfold eap_points; cbn; lia|exact I]|]. split; [now apply item_rises|]. split.
  - exists [Some 0%Z; Some 0%Z], [Some 1%Z; Some 0%Z]. cbn. split; [auto|]. split; [auto|]. unfold score_on, answer. cbn [nth]. change (0 =? -1)%Z with false. change (1 =? -1)%Z with false. cbv iota. change (Z.to_nat 0) with 0%nat. change (Z.to_nat 1) with 1%nat. cbn [INR]. apply Rlt_not_eq. change (Pos.to_nat 1) with 1%nat. cbn [INR]. lra.
  - exists {| tpl_lv := 1; tpl_free := [[true]]; tpl_w := [1]; tpl_b := [0] |}, 0%Z. assert (W : tpl_wf {| tpl_lv := 1; tpl_free := [[true]]; tpl_w := [1]; tpl_b := [0] |}) by (repeat split; cbn; try lia; repeat constructor). split.
    + apply upward_tpl; [exact W|cbn; lia|reflexivity|]. intros [|i] Hi; [unfold slope; cbn; lra|cbn in Hi; lia].
    + exact (P_Pop6.tpl_row_model _ W ltac:(cbn; lia)).
Qed.
