(** Property theorems C140: items scored in the other direction. *)
From Verif Require T_Est.
From Verif Require Import Base BaseFacts RBase RFacts M_Data M_CV M_Logit M_Lik M_Est M_Opt M_Jml P_Data P_Logit P_Est1 P_Est2 P_Est3 P_Stat4 P_Sym1 P_Sym2 P_Sym3 P_Sym4 P_Rev S_Logit S_Lik S_Est S_Sym S_Rev.
Import List.
Local Open Scope R_scope.

(** A generalised partial credit model for a three and a two category item, and three respondents. *)
Definition rating : irt := Gpc {| p_cats := [3; 2]%nat; p_lv := 1; p_free := [[true]; [true]]; p_w := [1; -2]; p_b := [1 / 2; -1; 3] |}.
Lemma rating_wf : well_formed rating.
Proof. repeat split; try (cbn; lia). - repeat constructor. - repeat constructor. Qed.
Definition ratings : list (list cell) := [[Some 2; None]; [Some 0; Some 1]; [Some (-1); Some 0]]%Z.
Lemma ratings_legal : legal_data [3; 2]%nat ratings.
Proof.
  unfold legal_data, ratings. apply Forall_forall. intros row [<- |[<- |[<- |[]]]]; (split; [reflexivity|]); intros [|[|i]] c H; cbn in H;
    try (destruct i; discriminate); injection H as <-; auto; right; right;
    first [exists 2%nat; cbn; split; [reflexivity|lia] | exists 1%nat; cbn; split; [reflexivity|lia] | exists 0%nat; cbn; split; [reflexivity|lia]].
Qed.

(** ** Probabilities, losses and scores *)
(** Number the answers to any items from the other end.  The model of the same class with the parameters turned round has the same
    probabilities for the same answers; marginal and joint losses and the EAP scores (or exceptions) are the same; numbering the
    answers from the other end again gives the data back. *)
Theorem C140_reversed : forall nanl x flip, reversible x -> well_formed x -> let m := model_of nanl x in let m' := model_of nanl (recode flip x) in let I := em_items m in
  well_formed (recode flip x) /\ library_model m' (chances (recode flip x)) /\ em_cats m' = em_cats m /\ em_lv m' = em_lv m /\
  (forall t i k, (i < I)%nat -> (k < nth i (em_cats m) O)%nat -> chances (recode flip x) t i (if nth i flip false then nth i (em_cats m) O - 1 - k else k)%nat = chances x t i k) /\
  forall data, legal_data (em_cats m) data -> let data' := map (recoded flip (em_cats m)) data in
  legal_data (em_cats m) data' /\ map (recoded flip (em_cats m)) data' = data /\
  (forall points weights, points <> [] -> length weights = length points -> Forall (fun t => length t = em_lv m) points -> Forall (fun w => 0 < w) weights ->
     mml_loss m' points (map (fun w => Some (Fin (ln w))) weights) (Wide I data') = mml_loss m points (map (fun w => Some (Fin (ln w))) weights) (Wide I data)) /\
  (forall thetas, length thetas = length data -> Forall (fun t => length t = em_lv m) thetas -> jml_loss m' (Wide I data') thetas = jml_loss m (Wide I data) thetas) /\
  (forall mvn a points, (0 < match points with Some g => g | None => eap_default_points (em_lv m) end)%nat -> data <> [] ->
     eap_theta_scores mvn m' a points (Wide I data') = eap_theta_scores mvn m a points (Wide I data)).
Proof.
  intros nanl x flip HV H m m' I. assert (EC : em_cats m = cats_of x) by apply model_cats.
  assert (H' : well_formed (recode flip x)) by (now apply recode_well_formed). assert (EC' : em_cats m' = em_cats m) by (unfold m, m'; rewrite !model_cats; apply recode_cats).
  assert (HM : library_model m (chances x)) by (now apply model_library). assert (HM' : library_model m' (chances (recode flip x))) by (now apply model_library).
  assert (EI : em_items m' = I) by (unfold I, em_items; now rewrite EC'). assert (EL : em_lv m' = em_lv m) by (unfold m, m'; rewrite !model_lv; apply recode_latents).
  split; [exact H'|]. split; [exact HM'|]. split; [exact EC'|]. split; [exact EL|]. split; [intros t i k Hi Hk; unfold I, em_items in Hi; rewrite EC in *; now apply (recode_chances flip x)|].
  intros data HD data'. assert (HD0 : forall row, In row data -> legal_row (cats_of x) row) by (rewrite EC in HD; unfold legal_data in HD; now rewrite Forall_forall in HD).
  assert (HD' : legal_data (em_cats m) data') by (apply Forall_forall; intros r Hr; apply in_map_iff in Hr as (row & <- & Hrow); rewrite EC; apply recoded_legal; auto).
  assert (HLk : forall t row, In row data -> likelihood (chances (recode flip x)) t (recoded flip (em_cats m) row) = likelihood (chances x) t row) by (intros t row Hr; rewrite EC; apply recoded_likelihood; auto).
  split; [exact HD'|]. split; [|split; [|split]].
  - unfold data'. rewrite map_map. rewrite <- (map_id data) at 2. apply map_ext_in. intros row Hr. rewrite EC. apply recoded_twice. auto.
  - intros points weights H1 H2 H3 H4. rewrite <- EI at 1. rewrite (mml_library m' (chances (recode flip x))) by (auto; rewrite ?EL, ?EC'; auto). unfold I. rewrite (mml_library m (chances x)) by auto. do 4 f_equal. unfold data'. rewrite map_map.
    f_equal. apply map_ext_in. intros row Hr. f_equal. apply marginal_ext; [reflexivity|]. intros q Hq. now apply HLk.
  - intros thetas H1 H2. rewrite <- EI at 1. rewrite (jml_library m' (chances (recode flip x))) by (solve [assumption|now rewrite EL|now rewrite EC'|unfold data'; now rewrite map_length]). unfold I. rewrite (jml_library m (chances x)) by auto. do 4 f_equal.
    unfold data'. clear - HLk. f_equal. revert thetas; induction data as [|r data IH]; intros [|t thetas]; try reflexivity. cbn [map combine fst snd]. f_equal; [f_equal; apply HLk; now left|]. apply IH. intros. apply HLk. now right.
  - intros mvn a points Hg Hne. destruct (eap_prefix (em_lv m) mvn a points Hg) as [(e & HE)|(grid & lp & HG & HF & HE)]; [now rewrite !HE by auto|]. rewrite !HE by auto.
    assert (EX : forall (q : irt) (mq : emodel), well_formed q -> library_model mq (chances q) -> forall da, legal_data (em_cats mq) da -> Forall (fun row => Exists (fun t => 0 < likelihood (chances q) t row) grid) da).
    { intros q mq Hq Hmq da Hl. apply Forall_forall. intros row Hrow. apply Exists_exists. destruct grid as [|t ts]; [cbn in HG; lia|]. exists t. split; [now left|]. apply (library_likelihood mq (chances q)); auto. unfold legal_data in Hl. rewrite Forall_forall in Hl. auto. }
    rewrite <- EI at 1. rewrite (eap_posterior_mean m' (chances (recode flip x)) grid lp data'); auto; try now rewrite EL.
    + unfold I. rewrite (eap_posterior_mean m (chances x) grid lp data); auto.
      * f_equal. unfold data'. rewrite map_map, EL. apply map_ext_in. intros row Hr. apply map_ext. intro d. do 2 f_equal. unfold posterior_mean. f_equal; f_equal; apply map_ext; intro t; now rewrite HLk.
      * now apply library_has_probabilities.
      * now apply flat_rowwise, (library_flat m (chances x)).
      * now apply (library_items m (chances x)).
      * apply (EX x m); auto.
    + now apply library_has_probabilities.
    + now apply flat_rowwise, (library_flat m' (chances (recode flip x))).
    + now apply (library_items m' (chances (recode flip x))).
    + unfold data'. destruct data; [congruence|discriminate].
    + now rewrite EC'.
    + apply (EX (recode flip x) m'); auto. now rewrite EC'.
Qed.
Print Assumptions C140_reversed.
Example C140_reversed_nonvacuous : reversible rating /\ well_formed rating /\ legal_data (em_cats (model_of 0 rating)) ratings /\
  map (recoded [true; false] (em_cats (model_of 0 rating))) ratings = [[Some 0; None]; [Some 2; Some 1]; [Some (-1); Some 0]]%Z /\
  recode [true; false] rating = Gpc {| p_cats := [3; 2]%nat; p_lv := 1; p_free := [[true]; [true]]; p_w := [-1 * 1; 1 * -2]; p_b := [1 / 2 - -1; 0 - -1; 3 - 0] |}.
Proof. split; [exact Logic.I|]. split; [exact rating_wf|]. split; [exact ratings_legal|]. split; reflexivity. Qed.

(** ** What can be attained *)
(** Whatever marginal (joint) loss some parameters attain on the data, some parameters of the same model attain on the data with items
    numbered from the other end, and conversely.  So the direction of scoring changes neither the best fit nor which class of model fits
    better. *)
Theorem C140_attainable : forall nanl x flip data v, reversible x -> well_formed x -> let m := model_of nanl x in legal_data (em_cats m) data ->
  let data' := map (recoded flip (em_cats m)) data in
  (forall points weights, points <> [] -> length weights = length points -> Forall (fun t => length t = em_lv m) points -> Forall (fun w => 0 < w) weights ->
     let loss y da := mml_loss (model_of nanl y) points (map (fun w => Some (Fin (ln w))) weights) (Wide (em_items m) da) in
     (exists y, alike x y /\ well_formed y /\ loss y data = Ok (Some (Fin v))) <-> (exists y, alike x y /\ well_formed y /\ loss y data' = Ok (Some (Fin v)))) /\
  (forall thetas, length thetas = length data -> Forall (fun t => length t = em_lv m) thetas ->
     let loss y da := jml_loss (model_of nanl y) (Wide (em_items m) da) thetas in
     (exists y, alike x y /\ well_formed y /\ loss y data = Ok (Some (Fin v))) <-> (exists y, alike x y /\ well_formed y /\ loss y data' = Ok (Some (Fin v)))).
Proof.
  intros nanl x flip data v HV H m HD data'.
  assert (A : forall y, alike x y -> reversible y /\ alike x (recode flip y) /\ em_cats (model_of nanl y) = em_cats m /\ em_lv (model_of nanl y) = em_lv m).
  { intros y Hy. unfold m. rewrite !model_cats, !model_lv. destruct x as [a|a|a|a|a|a], y as [b|b|b|b|b|b]; cbn [alike reversible recode cats_of latents] in *; try contradiction; unfold tpl_items;
      repeat match goal with Q : _ /\ _ |- _ => destruct Q end; repeat split; auto; congruence. }
  destruct (C140_reversed nanl x flip HV H) as (_ & _ & _ & _ & _ & D). destruct (D data HD) as (HD' & T & _). clear D. fold m data' in HD', T.
  split.
  - intros points weights H1 H2 H3 H4 loss.
    assert (S1 : forall y da, alike x y -> well_formed y -> legal_data (em_cats m) da -> loss (recode flip y) (map (recoded flip (em_cats m)) da) = loss y da).
    { intros y da Hy Hw Hl. destruct (A y Hy) as (HR & _ & EC & EL). destruct (C140_reversed nanl y flip HR Hw) as (_ & _ & _ & _ & _ & D). rewrite EC in D. destruct (D da Hl) as (_ & _ & M & _). rewrite EL in M.
      unfold loss. replace (em_items m) with (em_items (model_of nanl y)) by (unfold em_items; now rewrite EC). now apply M. }
    split; intros (y & Hy & Hw & E); exists (recode flip y); destruct (A y Hy) as (HR & HA & _); (split; [exact HA|]); (split; [now apply recode_well_formed|]).
    + unfold data'. now rewrite S1.
    + rewrite <- T. now rewrite S1.
  - intros thetas H1 H2 loss.
    assert (S1 : forall y da, alike x y -> well_formed y -> legal_data (em_cats m) da -> length thetas = length da -> loss (recode flip y) (map (recoded flip (em_cats m)) da) = loss y da).
    { intros y da Hy Hw Hl Hlen. destruct (A y Hy) as (HR & _ & EC & EL). destruct (C140_reversed nanl y flip HR Hw) as (_ & _ & _ & _ & _ & D). rewrite EC in D. destruct (D da Hl) as (_ & _ & _ & M & _). rewrite EL in M.
      unfold loss. replace (em_items m) with (em_items (model_of nanl y)) by (unfold em_items; now rewrite EC). now apply M. }
    split; intros (y & Hy & Hw & E); exists (recode flip y); destruct (A y Hy) as (HR & HA & _); (split; [exact HA|]); (split; [now apply recode_well_formed|]).
    + unfold data'. now rewrite S1.
    + rewrite <- T. rewrite S1; auto. unfold data'. now rewrite map_length.
Qed.
Print Assumptions C140_attainable.
Example C140_attainable_nonvacuous : reversible rating /\ well_formed rating /\ legal_data (em_cats (model_of 0 rating)) ratings /\ alike rating (recode [true; false] rating) /\
  exists v, jml_loss (model_of 0 rating) (Wide 2 ratings) [[0]; [1]; [-1]] = Ok (Some (Fin v)).
Proof.
  split; [exact Logic.I|]. split; [exact rating_wf|]. split; [exact ratings_legal|]. split; [repeat split|].
  eexists. exact (jml_library (model_of 0 rating) (chances rating) [[0]; [1]; [-1]] ratings (model_library 0 rating rating_wf) ltac:(repeat constructor) eq_refl ratings_legal).
Qed.

(** ** The one parameter model *)
(** Its slope is fixed at one: all items together can be turned round, with the latent variable, ... *)
Theorem C140_one_parameter : forall nanl m, well_formed (Opl m) -> let m' := {| opl_items := opl_items m; opl_b := map Ropp (opl_b m) |} in let all := repeat true (opl_items m) in let I := opl_items m in
  well_formed (Opl m') /\
  (forall t i k, (i < I)%nat -> (k < 2)%nat -> opl_p m' [- t] i (1 - k) = opl_p m [t] i k) /\
  forall data, legal_data (repeat 2%nat I) data -> let data' := map (recoded all (repeat 2%nat I)) data in
  (forall points weights, points <> [] -> length weights = length points -> Forall (fun w => 0 < w) weights ->
     mml_loss (model_of nanl (Opl m')) (map (fun t => [- t]) points) (map (fun w => Some (Fin (ln w))) weights) (Wide I data') =
     mml_loss (model_of nanl (Opl m)) (map (fun t => [t]) points) (map (fun w => Some (Fin (ln w))) weights) (Wide I data)) /\
  (forall thetas, length thetas = length data ->
     jml_loss (model_of nanl (Opl m')) (Wide I data') (map (fun t => [- t]) thetas) = jml_loss (model_of nanl (Opl m)) (Wide I data) (map (fun t => [t]) thetas)).
Proof.
  intros nanl m H m' all I. destruct H as [H1 H2]. assert (H' : well_formed (Opl m')) by (split; [cbn [m' opl_b opl_items]; now rewrite map_length|exact H2]).
  assert (HC : forall t i k, (i < I)%nat -> (k < 2)%nat -> opl_p m' [- t] i (1 - k) = opl_p m [t] i k) by (intros t i k Hi Hk; apply opl_turned; [now rewrite H1|exact Hk]).
  split; [exact H'|]. split; [exact HC|]. intros data HD data'.
  assert (HD0 : forall row, In row data -> legal_row (repeat 2%nat I) row) by (unfold legal_data in HD; now rewrite Forall_forall in HD).
  assert (HD' : legal_data (repeat 2%nat I) data') by (apply Forall_forall; intros r Hr; apply in_map_iff in Hr as (row & <- & Hrow); apply recoded_legal; auto).
  assert (HLk : forall t row, In row data -> likelihood (opl_p m') [- t] (recoded all (repeat 2%nat I) row) = likelihood (opl_p m) [t] row).
  { intros t row Hr. pose proof (HD0 row Hr) as HR. pose proof (proj1 HR) as HL. rewrite repeat_length in HL. rewrite (likelihood_seq _ _ (recoded all (repeat 2%nat I) row) I) by (now rewrite recoded_length). rewrite (likelihood_seq _ _ row _ HL).
    f_equal. apply map_ext_in. intros i Hi. apply in_seq in Hi. unfold factor. rewrite recoded_answer by (rewrite ?repeat_length; auto; lia). destruct (answer (nth i row None)) as [k|] eqn:E; cbn [option_map]; [|reflexivity].
    pose proof (legal_factor _ row i k HR ltac:(rewrite repeat_length; lia) E) as Hk. assert (Hi' : (i < opl_items m)%nat) by (unfold I in Hi; lia).
    assert (EF : nth i all false = true) by (exact (nth_error_nth _ _ false (nth_error_repeat_lt true _ i Hi'))). assert (EK : nth i (repeat 2%nat I) O = 2%nat) by (exact (nth_error_nth _ _ O (nth_error_repeat_lt 2%nat _ i Hi'))).
    unfold other_end, flipped. rewrite EK in *. rewrite EF. apply HC; [exact Hi'|exact Hk]. }
  assert (HM : library_model (model_of nanl (Opl m)) (opl_p m)) by (apply (model_library nanl (Opl m)); now split). assert (HM' : library_model (model_of nanl (Opl m')) (opl_p m')) by (now apply (model_library nanl (Opl m'))).
  assert (one : forall (f : R -> R) l, Forall (fun t : list R => length t = 1%nat) (map (fun t => [f t]) l)) by (intros f l; apply Forall_forall; intros t Ht; apply in_map_iff in Ht as (u & <- & _); reflexivity).
  assert (EI : I = em_items (model_of nanl (Opl m))) by (unfold em_items; rewrite model_cats; cbn [cats_of]; now rewrite repeat_length).
  assert (EI' : I = em_items (model_of nanl (Opl m'))) by (unfold em_items; rewrite model_cats; cbn [cats_of]; now rewrite repeat_length).
  split.
  - intros points weights P1 P2 P3. rewrite EI' at 1. rewrite (mml_library _ (opl_p m')); [|exact HM'|destruct points; [congruence|discriminate]|now rewrite map_length|apply (one Ropp)|exact P3|exact HD'].
    rewrite EI. rewrite (mml_library _ (opl_p m)); [|exact HM|destruct points; [congruence|discriminate]|now rewrite map_length|apply (one (fun t => t))|exact P3|exact HD].
    do 4 f_equal. unfold data'. rewrite map_map. f_equal. apply map_ext_in. intros row Hr. f_equal. apply marginal_ext; [now rewrite !map_length|]. intros q Hq. rewrite map_length in Hq.
    assert (N : forall f : R -> R, nth q (map (fun t => [f t]) points) [] = [f (nth q points 0)]) by (intro f; apply nth_error_nth; rewrite nth_error_map, (nth_error_nth_lt points q 0 Hq); reflexivity).
    rewrite (N Ropp), (N (fun t => t)). now apply HLk.
  - intros thetas P1. rewrite EI' at 1. rewrite (jml_library _ (opl_p m')); [|exact HM'|apply (one Ropp)|unfold data'; now rewrite !map_length|exact HD']. rewrite EI. rewrite (jml_library _ (opl_p m)); [|exact HM|apply (one (fun t => t))|now rewrite map_length|exact HD].
    do 4 f_equal. unfold data'. clear - HLk. f_equal. revert thetas; induction data as [|r data IH]; intros [|t thetas]; try reflexivity. cbn [map combine fst snd]. f_equal; [f_equal; apply HLk; now left|]. apply IH. intros. apply HLk. now right.
Qed.
Print Assumptions C140_one_parameter.
Example C140_one_parameter_nonvacuous : well_formed (Opl {| opl_items := 2; opl_b := [1; -3] |}) /\ legal_data (repeat 2%nat 2) [[Some 1; None]]%Z /\ map (recoded (repeat true 2) (repeat 2%nat 2)) [[Some 1; None]]%Z = [[Some 0; None]]%Z.
Proof.
  split; [split; [reflexivity|cbn; lia]|]. split; [|reflexivity]. constructor; [|constructor]. split; [reflexivity|]. intros [|[|i]] c H; cbn in H; [| |destruct i; discriminate]; injection H as <-; auto.
  right; right. exists 1%nat. split; [reflexivity|cbn; lia].
Qed.

(** ... while no item of a 1PL model answers like another one with its answers numbered from the other end; neither does any item of a
    3PL model with a nonzero slope, because of guessing. *)
Theorem C140_one_direction : (forall m m' i j, ~ forall t, opl_p m' [t] j 1 = opl_p m [t] i 0) /\
  (forall m m' i j d, thpl_lv m' = thpl_lv m -> (d < thpl_lv m)%nat -> slope (thpl_free m) (thpl_w m) i d <> 0 -> ~ forall t, length t = thpl_lv m -> thpl_p m' t j 1 = thpl_p m t i 0).
Proof. split; [exact opl_not_turned|exact thpl_not_turned]. Qed.
Print Assumptions C140_one_direction.
Example C140_one_direction_nonvacuous : slope [[true]] [2] 0 0 <> 0.
Proof. cbn. lra. Qed.
