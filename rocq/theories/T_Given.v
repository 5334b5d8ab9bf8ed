(** Property C139: what answers tell beyond the weighted sum score. *)
From Verif Require Import Base BaseFacts RBase RFacts M_Data M_Logit M_Lik M_Est M_Opt M_Jml M_Stat P_Logit P_Logit2 P_Est1 P_Est2 P_True1 P_Stat1 P_Stat2 P_Suff1 P_Suff2 P_Sym3 P_Abler P_Abler2 P_Lik5 P_Info3 P_Row T_Logit T_Est S_Logit S_Lik S_Est S_Stat S_True S_Pop S_Rao S_Suff S_Abler S_Given P_Given.
Import List.
Local Open Scope R_scope.

(** C139.  Among those who have the same weighted sum scores, the mean of anything computed from the answers is the same
    in every population. *)
Theorem C139_conditional : forall m p w seen f s,
  weights_of m p w -> length seen = length (em_cats m) -> (exists row, In row (possible_rows (em_cats m) seen) /\ scores (em_lv m) w s row = true) ->
  let given h := fun row => if scores (em_lv m) w s row then h row else 0 in
  exists g, forall people, Forall (fun x => 0 <= fst x /\ length (snd x) = em_lv m) people -> (exists x, In x people /\ 0 < fst x) ->
    0 < among people (fun t => on_answers (em_cats m) seen p t (given (fun _ => 1))) /\
    among people (fun t => on_answers (em_cats m) seen p t (given f)) / among people (fun t => on_answers (em_cats m) seen p t (given (fun _ => 1))) = g.
Proof.
  intros m p w seen f s Hw HL (row0 & Hin & Hs) given. destruct (conditional m p w seen s row0 Hw HL Hin Hs) as (gamma & G1 & G). exists (gamma f / gamma (fun _ => 1)). intros people HP HE. rewrite Forall_forall in HP.
  assert (E : forall h, among people (fun t => on_answers (em_cats m) seen p t (given h)) = gamma h * among people (fun t => likelihood p t row0)).
  { intro h. rewrite <- among_scal. apply among_ext. intros x Hx. apply (G h (snd x)). now apply HP. }
  assert (A : 0 < among people (fun t => likelihood p t row0)).
  { apply among_pos; [apply Forall_forall; intros x Hx; now apply HP| |exact HE]. intros x Hx. apply (library_likelihood m p); [now apply weights_library with w|now apply rows_legal with seen]. }
  rewrite !E. split; [nra|]. field. lra.
Qed.
Print Assumptions C139_conditional.

(** What the losses say about the respondents: the difference between two quadrature rules (populations) under marginal
    maximum likelihood, and between two sets of scores under joint maximum likelihood, depends on the weighted sum scores only. *)
Theorem C139_populations : forall m p w data data' points weights points' weights',
  weights_of m p w -> legal_data (em_cats m) data -> legal_data (em_cats m) data' -> same_scores (em_lv m) w data data' ->
  points <> [] -> length weights = length points -> Forall (fun t => length t = em_lv m) points -> Forall (fun w => 0 < w) weights ->
  points' <> [] -> length weights' = length points' -> Forall (fun t => length t = em_lv m) points' -> Forall (fun w => 0 < w) weights' ->
  let loss pts ws d := mml_loss m pts (map (fun w => Some (Fin (ln w))) ws) (Wide (em_items m) d) in
  exists x y x' y', loss points weights data = Ok (Some (Fin x)) /\ loss points' weights' data = Ok (Some (Fin y)) /\
    loss points weights data' = Ok (Some (Fin x')) /\ loss points' weights' data' = Ok (Some (Fin y')) /\ x - y = x' - y'.
Proof.
  intros m p w data data' points weights points' weights' Hw HD HD' HS P1 P2 P3 P4 P1' P2' P3' P4' loss. pose proof (weights_library m p w Hw) as HM. unfold loss.
  do 4 eexists. split; [apply (C30_marginal_likelihood m p); assumption|]. split; [apply (C30_marginal_likelihood m p); assumption|]. split; [apply (C30_marginal_likelihood m p); assumption|]. split; [apply (C30_marginal_likelihood m p); assumption|].
  clear loss. induction HS as [|row row' data data' [S1 S2] HS IH]; [reflexivity|]. specialize (IH (Forall_inv_tail HD) (Forall_inv_tail HD')). cbn [map rsum]. apply Forall_inv in HD, HD'.
  destruct (proportional m p w row row' Hw HD HD' S1 S2) as (c & Hc & E).
  assert (Q : forall pts ws, pts <> [] -> length ws = length pts -> Forall (fun t => length t = em_lv m) pts -> Forall (fun w => 0 < w) ws ->
    ln (rsum (zip_with (fun w t => w * likelihood p t row') ws pts)) = ln c + ln (rsum (zip_with (fun w t => w * likelihood p t row) ws pts))).
  { intros pts ws N L F W. assert (K : rsum (zip_with (fun w t => w * likelihood p t row') ws pts) = c * rsum (zip_with (fun w t => w * likelihood p t row) ws pts)).
    { clear N L W. revert ws. induction pts as [|t pts IHp]; intros [|v ws]; cbn [zip_with rsum]; try ring. rewrite (IHp (Forall_inv_tail F) ws), (E t (Forall_inv F)). ring. }
    rewrite K. apply ln_mult; [exact Hc|]. clear - N L F W HD HM. destruct pts as [|t pts]; [congruence|]. destruct ws as [|v ws]; [discriminate|]. cbn [zip_with rsum]. cbn [length] in L.
    assert (0 < v * likelihood p t row) by (apply Rmult_lt_0_compat; [exact (Forall_inv W)|now apply (library_likelihood m p)]).
    assert (0 <= rsum (zip_with (fun w t => w * likelihood p t row) ws pts)) by (apply Forall_inv_tail in W; clear - HD HM W; revert pts; induction ws as [|u ws IH]; intros [|t pts]; cbn [zip_with rsum]; try lra; pose proof (IH (Forall_inv_tail W) pts); pose proof (Forall_inv W); cbv beta in *; pose proof (library_likelihood m p t row HM HD); nra). lra. }
  rewrite (Q points weights), (Q points' weights') by assumption. lra.
Qed.
Print Assumptions C139_populations.

Theorem C139_joint : forall m p w data data' thetas thetas',
  weights_of m p w -> legal_data (em_cats m) data -> legal_data (em_cats m) data' -> same_scores (em_lv m) w data data' ->
  length thetas = length data -> Forall (fun t => length t = em_lv m) thetas -> length thetas' = length data -> Forall (fun t => length t = em_lv m) thetas' ->
  exists x y x' y', jml_loss m (Wide (em_items m) data) thetas = Ok (Some (Fin x)) /\ jml_loss m (Wide (em_items m) data) thetas' = Ok (Some (Fin y)) /\
    jml_loss m (Wide (em_items m) data') thetas = Ok (Some (Fin x')) /\ jml_loss m (Wide (em_items m) data') thetas' = Ok (Some (Fin y')) /\ x - y = x' - y'.
Proof.
  intros m p w data data' thetas thetas' Hw HD HD' HS L F L' F'. pose proof (weights_library m p w Hw) as HM. assert (LD : length data = length data') by (clear - HS; induction HS; cbn; auto).
  do 4 eexists. split; [now apply (jml_library m p)|]. split; [now apply (jml_library m p)|]. split; [apply (jml_library m p); auto; congruence|]. split; [apply (jml_library m p); auto; congruence|]. clear LD.
  revert thetas thetas' L F L' F'. induction HS as [|row row' data data' [S1 S2] HS IH]; intros [|t ts] [|t' ts'] L F L' F'; try discriminate; [cbn; lra|]. cbn [length] in L, L'. specialize (IH (Forall_inv_tail HD) (Forall_inv_tail HD') ts ts' ltac:(lia) (Forall_inv_tail F) ltac:(lia) (Forall_inv_tail F')). cbn [combine map rsum fst snd].
  apply Forall_inv in HD, HD'. destruct (proportional m p w row row' Hw HD HD' S1 S2) as (c & Hc & E). rewrite (E t (Forall_inv F)), (E t' (Forall_inv F')). rewrite !ln_mult by (auto; now apply (library_likelihood m p)). lra.
Qed.
Print Assumptions C139_joint.

(** When all slopes are the same number [a], the sum scores of two respondents compare in the same way whatever the
    items: the odds of two sum scores differ between them by the factor exp (a * difference of scores * difference of
    latent variables). *)
Theorem C139_sum_scores : forall m p w a M probs q z z',
  weights_of m p w -> em_lv m = 1%nat -> (forall i k, (i < length (em_cats m))%nat -> (k < nth i (em_cats m) O)%nat -> w i k O = INR k * a) ->
  row_model 1 (em_cats m) M probs q ->
  (forall x i k, (i < length (em_cats m))%nat -> (k < nth i (em_cats m) O)%nat -> q [x] i k = p [x] i k) ->
  exists row row' ds ds', probs [[z]; [z']] = some3 [row; row'] /\
    conditional_score_distribution row (em_cats m) = Ok ds /\ conditional_score_distribution row' (em_cats m) = Ok ds' /\
    forall s s', nth s ds 0 * nth s' ds' 0 = exp (a * (INR s - INR s') * (z - z')) * (nth s' ds 0 * nth s ds' 0).
Proof.
  intros m p w a M probs q z z' Hw Hlv Ha HR HQ. set (cats := em_cats m) in *.
  assert (HC : Forall (fun K => (1 <= K)%nat) cats).
  { apply Forall_forall. intros K HK. apply In_nth_error in HK as [i Hi]. now apply (row_model_distribution 1 cats M probs q [0] i K HR eq_refl). }
  assert (HN : cats <> []) by (intro X; destruct Hw; unfold cats in X; cbn in X; unfold p_items in *; try (rewrite X in *; cbn in *; lia); match goal with H : (0 < ?n)%nat |- _ => destruct n; [lia|discriminate] end).
  set (table := fun t => map (fun i => map (fun k => q t i k) (seq 0 M)) (seq 0 (length cats))).
  assert (ET : probs [[z]; [z']] = some3 [table [z]; table [z']]).
  { rewrite (row_model_table 1 cats M probs q _ HR) by (repeat constructor). unfold some3, table. cbn [map]. f_equal; [|f_equal]; rewrite map_map; apply map_ext; intro i; now rewrite map_map. }
  pose proof (table_rows cats M probs q p [z; z'] [table [z]; table [z']] HR HQ ET) as F. inversion F as [|? ? ? ? F1 F2]; subst. inversion F2 as [|? ? ? ? F3 _]; subst. clear F F2.
  assert (FIT : forall x, rows_of_p cats p x (table [x]) -> fits (table [x]) cats).
  { intros x HX. clear - HX HC. revert p HX. generalize (table [x]). revert HC. induction cats as [|K cs IH]; intros HC [|r probs] p [HL H]; try discriminate; [constructor|]. cbn [length] in HL. constructor; [split; [exact (Forall_inv HC)|exact (proj1 (H O ltac:(cbn; lia)))]|]. apply (IH (Forall_inv_tail HC) probs (shift p)). split; [lia|]. intros i Hi. exact (H (S i) ltac:(cbn [length]; lia)). }
  assert (TN : forall x, table [x] <> []) by (intro x; unfold table; destruct cats; [congruence|discriminate]).
  destruct (csd_spec _ _ (FIT z F1) (TN z)) as (ds & E & _ & N). destruct (csd_spec _ _ (FIT z' F3) (TN z')) as (ds' & E' & _ & N').
  exists (table [z]), (table [z']), ds, ds'. split; [exact ET|]. split; [exact E|]. split; [exact E'|]. intros s s'. rewrite !N, !N', !score_probability_etotal by (apply fits_length; auto).
  rewrite !(etotal_answers cats p z _ _ F1), !(etotal_answers cats p z' _ _ F3). destruct (raw_scores m p w a Hw Hlv Ha HC) as (gamma & L & G). fold cats in G. rewrite !G.
  replace (exp (INR s * a * z)) with (exp (INR s * a * z')* exp (INR s * a * (z - z'))) by (rewrite <- exp_plus; f_equal; ring). replace (exp (INR s' * a * z)) with (exp (INR s' * a * z') * exp (INR s' * a * (z - z'))) by (rewrite <- exp_plus; f_equal; ring).
  replace (exp (INR s * a * (z - z'))) with (exp (a * (INR s - INR s') * (z - z')) * exp (INR s' * a * (z - z'))) by (rewrite <- exp_plus; f_equal; ring). ring.
Qed.
Print Assumptions C139_sum_scores.

(** In the one parameter model two items compare in the same way for all respondents. *)
Theorem C139_comparison : forall m thetas r t i j, length (opl_b m) = opl_items m -> nth_error thetas r = Some t -> (i < opl_items m)%nat -> (j < opl_items m)%nat ->
  preference (opl_probabilities m thetas) r i j (exp (nth i (opl_b m) 0 - nth j (opl_b m) 0)).
Proof.
  intros m thetas r t i j Hb Hr Hi Hj. destruct (C14_opl m thetas r t i Hb Hr Hi) as [A B]. destruct (C14_opl m thetas r t j Hb Hr Hj) as [C D]. do 4 eexists. split; [exact A|]. split; [exact B|]. split; [exact C|]. split; [exact D|].
  pose proof (logistic_bounds (t + nth i (opl_b m) 0)) as BI. pose proof (logistic_bounds (t + nth j (opl_b m) 0)) as BJ. split; [nra|].
  set (u := logistic (t + nth i (opl_b m) 0)) in *. set (v := logistic (t + nth j (opl_b m) 0)) in *. replace (u * (1 - v) / (v * (1 - u))) with ((u / (1 - u)) / (v / (1 - v))) by (field; lra).
  unfold u, v. rewrite !odds. unfold Rdiv. rewrite <- exp_Ropp, <- exp_plus. f_equal. ring.
Qed.
Print Assumptions C139_comparison.

(** In the two parameter model only items with the same slope do; with guessing, equal slopes do not suffice. *)
Theorem C139_slopes : forall m x y i j, tpl_wf m -> tpl_lv m = 1%nat -> (i < tpl_items m)%nat -> (j < tpl_items m)%nat -> x <> y -> exists v v',
  preference (tpl_probabilities m [[x]; [y]]) 0 i j v /\ preference (tpl_probabilities m [[x]; [y]]) 1 i j v' /\
  (v = v' <-> slope (tpl_free m) (tpl_w m) i 0 = slope (tpl_free m) (tpl_w m) j 0).
Proof.
  intros m x y i j Hwf Hlv Hi Hj Hxy.
  assert (G : forall r z, nth_error [[x]; [y]] r = Some [z] -> preference (tpl_probabilities m [[x]; [y]]) r i j (exp ((slope (tpl_free m) (tpl_w m) i 0 - slope (tpl_free m) (tpl_w m) j 0) * z + (nth i (tpl_b m) 0 - nth j (tpl_b m) 0)))).
  { intros r z Hr. assert (HF : Forall (fun t => length t = tpl_lv m) [[x]; [y]]) by (rewrite Hlv; repeat constructor). destruct (C14_tpl m _ r [z] i Hwf HF Hr Hi) as [A B]. destruct (C14_tpl m _ r [z] j Hwf HF Hr Hj) as [C D]. do 4 eexists. split; [exact A|]. split; [exact B|]. split; [exact C|]. split; [exact D|]. rewrite Hlv, !predictor_one.
    set (ei := slope (tpl_free m) (tpl_w m) i 0 * z + nth i (tpl_b m) 0). set (ej := slope (tpl_free m) (tpl_w m) j 0 * z + nth j (tpl_b m) 0). pose proof (logistic_bounds ei) as BI. pose proof (logistic_bounds ej) as BJ. split; [nra|].
    replace (logistic ei * (1 - logistic ej) / (logistic ej * (1 - logistic ei))) with ((logistic ei / (1 - logistic ei)) / (logistic ej / (1 - logistic ej))) by (field; lra). rewrite !odds. unfold Rdiv. rewrite <- exp_Ropp, <- exp_plus. f_equal. unfold ei, ej. ring. }
  do 2 eexists. split; [exact (G 0%nat x eq_refl)|]. split; [exact (G 1%nat y eq_refl)|]. set (si := slope (tpl_free m) (tpl_w m) i 0). set (sj := slope (tpl_free m) (tpl_w m) j 0). split; intro E.
  - apply exp_inv in E. assert (Q : (si - sj) * (x - y) = 0) by lra. apply Rmult_integral in Q as [Q|Q]; lra.
  - f_equal. rewrite E. ring.
Qed.
Print Assumptions C139_slopes.

Theorem C139_guessing : forall m x y i j, thpl_wf m -> thpl_lv m = 1%nat -> (i < thpl_items m)%nat -> (j < thpl_items m)%nat -> x <> y ->
  slope (thpl_free m) (thpl_w m) i 0 <> 0 -> slope (thpl_free m) (thpl_w m) i 0 = slope (thpl_free m) (thpl_w m) j 0 -> nth i (thpl_g m) 0 = nth j (thpl_g m) 0 -> exists v v',
  preference (some3 (thpl_probabilities m [[x]; [y]])) 0 i j v /\ preference (some3 (thpl_probabilities m [[x]; [y]])) 1 i j v' /\
  (v = v' <-> nth i (thpl_b m) 0 = nth j (thpl_b m) 0).
Proof.
  intros m x y i j Hwf Hlv Hi Hj Hxy Hs Es Eg. set (a := slope (thpl_free m) (thpl_w m) i 0) in *. set (c := logistic (nth i (thpl_g m) 0)). pose proof (logistic_bounds (nth i (thpl_g m) 0)) as BC. fold c in BC. set (bi := nth i (thpl_b m) 0). set (bj := nth j (thpl_b m) 0).
  assert (G : forall r z, nth_error [[x]; [y]] r = Some [z] -> preference (some3 (thpl_probabilities m [[x]; [y]])) r i j ((c + exp (a * z + bi)) / (c + exp (a * z + bj)))).
  { intros r z Hr. assert (HF : Forall (fun t => length t = thpl_lv m) [[x]; [y]]) by (rewrite Hlv; repeat constructor). pose proof (thpl_reads m Hwf _ r [z] i 1%nat HF Hr Hi ltac:(lia)) as A. pose proof (thpl_reads m Hwf _ r [z] i 0%nat HF Hr Hi ltac:(lia)) as B. pose proof (thpl_reads m Hwf _ r [z] j 1%nat HF Hr Hj ltac:(lia)) as C. pose proof (thpl_reads m Hwf _ r [z] j 0%nat HF Hr Hj ltac:(lia)) as D.
    do 4 eexists. split; [exact A|]. split; [exact B|]. split; [exact C|]. split; [exact D|]. clear A B C D. unfold P_Info3.thpl_p, thpl_P, thpl_x. cbv zeta. cbn [Nat.eqb]. rewrite Hlv, !predictor_one, <- Es, <- Eg. fold a c bi bj.
    set (ei := a * z + bi). set (ej := a * z + bj). pose proof (logistic_bounds ei) as BI. pose proof (logistic_bounds ej) as BJ. pose proof (guess_odds c ei BC) as OI. pose proof (guess_odds c ej BC) as OJ. set (u := c + (1 - c) * logistic ei) in *. set (v := c + (1 - c) * logistic ej) in *. assert (0 < u < 1) by (unfold u; split; nra). assert (0 < v < 1) by (unfold v; split; nra). split; [nra|].
    replace (u * (1 - v) / (v * (1 - u))) with ((u / (1 - u)) / (v / (1 - v))) by (field; lra). rewrite OI, OJ. pose proof (exp_pos ej). field. lra. }
  do 2 eexists. split; [exact (G 0%nat x eq_refl)|]. split; [exact (G 1%nat y eq_refl)|]. split; intro E.
  - pose proof (exp_pos (a * x)) as PX. pose proof (exp_pos (a * y)) as PY. pose proof (exp_pos bi) as PI. pose proof (exp_pos bj) as PJ. rewrite !exp_plus in E. set (X := exp (a * x)) in *. set (Y := exp (a * y)) in *. set (I := exp bi) in *. set (J := exp bj) in *.
    assert (PQ : 0 < c + X * J) by nra. assert (PQ' : 0 < c + Y * J) by nra.
    assert (Q : (c + X * I) * (c + Y * J) = (c + Y * I) * (c + X * J)) by (apply (f_equal (fun r => r * ((c + X * J) * (c + Y * J)))) in E; field_simplify in E; [|lra|lra]; nra).
    assert (Q2 : (X - Y) * (I - J) = 0) by (apply Rmult_eq_reg_l with c; [nra|lra]). apply Rmult_integral in Q2 as [Q2|Q2]; [|apply exp_inv; unfold I, J in Q2; lra].
    exfalso. assert (a * x = a * y) as Q3 by (apply exp_inv; unfold X, Y in Q2; lra). apply Rmult_eq_reg_l in Q3; [contradiction|exact Hs].
  - unfold bi, bj in *. rewrite E. pose proof (exp_pos (a * x + nth j (thpl_b m) 0)). pose proof (exp_pos (a * y + nth j (thpl_b m) 0)). field. lra.
Qed.
Print Assumptions C139_guessing.

(** Two items with intercepts 0 and 1: (1, 0) and (0, 1) have the same sum score; a two parameter model with slopes 1 and
    1 for which C139_sum_scores applies. *)
Example C139_nonvacuous : let m := {| opl_items := 2; opl_b := [0; 1] |} in let em := of_sub (opl_sub 0 m) in let w := fun (i k d : nat) => INR k in
  weights_of em (opl_p m) w /\ legal_data (em_cats em) [[Some 1; Some 0]]%Z /\ legal_data (em_cats em) [[Some 0; Some 1]]%Z /\
  same_scores (em_lv em) w [[Some 1; Some 0]]%Z [[Some 0; Some 1]]%Z /\
  In [Some 1; Some 0]%Z (possible_rows (em_cats em) [true; true]) /\ scores (em_lv em) w (fun _ => 1) [Some 1; Some 0]%Z = true /\
  (exists m' : tpl, let em' := of_sub (tpl_sub 0 m') in exists w', weights_of em' (tpl_p m') w' /\ em_lv em' = 1%nat /\
     (forall i k, (i < length (em_cats em'))%nat -> (k < nth i (em_cats em') O)%nat -> w' i k O = INR k * 1) /\
     row_model 1 (em_cats em') 2 (tpl_probabilities m') (P_Pop6.tpl_p m') /\
     forall x i k, (i < length (em_cats em'))%nat -> (k < nth i (em_cats em') O)%nat -> P_Pop6.tpl_p m' [x] i k = tpl_p m' [x] i k) /\
  exists m3, thpl_wf m3 /\ thpl_lv m3 = 1%nat /\ (1 < thpl_items m3)%nat /\ slope (thpl_free m3) (thpl_w m3) 0 0 <> 0 /\ slope (thpl_free m3) (thpl_w m3) 0 0 = slope (thpl_free m3) (thpl_w m3) 1 0 /\ nth 0 (thpl_g m3) 0 = nth 1 (thpl_g m3) 0.
Proof.
  cbv zeta. split; [apply weights_opl; [reflexivity|cbn; lia]|].
  assert (LG : forall a b : nat, (a < 2)%nat -> (b < 2)%nat -> legal_data (em_cats (of_sub (opl_sub 0 {| opl_items := 2; opl_b := [0; 1] |}))) [[Some (Z.of_nat a); Some (Z.of_nat b)]]).
  { intros a b Ha Hb. constructor; [|constructor]. apply rows_legal with [true; true]; [reflexivity|]. change (em_cats (of_sub (opl_sub 0 {| opl_items := 2; opl_b := [0; 1] |}))) with [2; 2]%nat. apply row_seen; [exact Ha|]. apply row_seen; [exact Hb|]. cbn. auto. }
  split; [exact (LG 1%nat 0%nat ltac:(lia) ltac:(lia))|]. split; [exact (LG 0%nat 1%nat ltac:(lia) ltac:(lia))|].
  split; [constructor; [|constructor]; split; [intros [|[|i]]; cbn; split; intro; try discriminate; destruct i; reflexivity|intros d _; unfold total; cbn; lra]|].
  split; [cbn; auto|]. split; [apply scoresP; intros d _; unfold total; cbn; change (Pos.to_nat 1) with 1%nat; cbn; lra|]. split.
  - exists {| tpl_lv := 1; tpl_free := [[true]; [true]]; tpl_w := [1; 1]; tpl_b := [0; 1] |}. cbv zeta.
    set (m' := {| tpl_lv := 1; tpl_free := [[true]; [true]]; tpl_w := [1; 1]; tpl_b := [0; 1] |}). assert (W : tpl_wf m') by (unfold tpl_wf, m'; cbn; repeat split; auto; repeat constructor).
    eexists. split; [apply weights_tpl; [exact W|cbn; lia]|]. split; [reflexivity|]. split; [intros [|[|i]] k Hi Hk; [cbn; ring|cbn; ring|cbn in Hi; lia]|]. split; [exact (P_Pop6.tpl_row_model m' W ltac:(cbn; lia))|].
    intros x i k Hi Hk. assert (k < 2)%nat by (destruct i as [|[|i]]; cbn in Hi, Hk; lia). unfold P_Pop6.tpl_p, tpl_p. destruct k as [|[|k]]; [reflexivity|reflexivity|lia].
  - exists {| thpl_lv := 1; thpl_free := [[true]; [true]]; thpl_w := [1; 1]; thpl_b := [0; 1]; thpl_g := [-1; -1] |}. unfold thpl_wf. cbn. repeat split; auto; try lia; try (repeat constructor); lra.
Qed.
