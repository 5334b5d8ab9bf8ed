(** The population grid in another unit, origin and direction of the latent variables. *)
From Coq Require Import Permutation Sorted.
From Verif Require Import Base BaseFacts RBase RFacts M_Logit M_Mono M_Lik M_Est M_Stat M_Grid P_Scale1 P_Grid1 P_Grid3 P_Max6 M_BitPop S_BitPop P_BitPop1.
Import M_Est List.
Local Open Scope R_scope.

Lemma nth_map_seq0 {A} (f : nat -> A) n j d : (j < n)%nat -> nth j (map f (seq 0 n)) d = f j.
Proof. intro J. rewrite nth_indep with (d' := f 0%nat) by (now rewrite map_length, seq_length). rewrite map_nth, seq_nth by exact J. reflexivity. Qed.
Lemma nth_mapi {A B} (f : nat -> A -> B) l j da db : (j < length l)%nat -> nth j (mapi f l) db = f j (nth j l da).
Proof.
  unfold mapi. enough (G : forall o k, (k < length l)%nat -> nth k (mapi_from o f l) db = f (o + k)%nat (nth k l da)) by (intro J; apply (G 0%nat j J)).
  induction l as [|x l IH]; intros o k K; [cbn in K; lia|]. cbn [mapi_from]. destruct k; cbn [nth]; [now rewrite Nat.add_0_r|]. rewrite IH by (cbn in K; lia). f_equal. lia.
Qed.
Definition unfin (r : result ext) : R := match r with Ok (Fin x) => x | _ => 0 end.
Definition outlying (r : result (list bool)) : bool := match r with Ok l => existsb (fun b => b) l | _ => false end.
Definition coupled (lv : nat) (pop : list (list R)) (s : list R) : bool :=
  existsb (fun j => outlying (is_outlier 4 [nth j s 0] (column 0 j pop) true true)) (seq 0 lv).
Definition low (pop : list (list R)) (s : list R) (j : nat) : R :=
  if coupled (length s) pop s then Rmax (nth j s 0) (unfin (limit_non_outlier 4 (column 0 j pop) true)) else nth j s 0.
Definition high (pop : list (list R)) (j : nat) : R := unfin (limit_non_outlier 4 (column 0 j pop) false).

Lemma column_some j pop : pop <> [] -> column 0 j pop <> [].
Proof. destruct pop; [congruence|]. discriminate. Qed.
Lemma outlier_total news l : l <> [] -> exists r, is_outlier 4 news l true true = Ok r.
Proof. intro H. destruct (fences_value 4 l H) as (q1 & q3 & _ & _ & _ & E). unfold is_outlier. rewrite E. cbn. eexists. reflexivity. Qed.
Lemma ext_max_fin x y : ext_max (Fin x) (Fin y) = Fin (Rmax x y).
Proof. unfold ext_max. cbn. destruct (Rlt_dec x y); [rewrite Rmax_right by lra|rewrite Rmax_left by lra]; reflexivity. Qed.

Lemma boundaries_value pop s : pop <> [] -> grid_boundaries pop s = Ok (map (fun j => (Fin (low pop s j), Fin (high pop j))) (seq 0 (length s))).
Proof.
  intro Ne. unfold grid_boundaries. cbv zeta.
  rewrite (mapM_total _ (fun j => outlying (is_outlier 4 [nth j s 0] (column 0 j pop) true true))).
  2:{ intros j _. destruct (outlier_total [nth j s 0] (column 0 j pop) (column_some j pop Ne)) as (r & E). rewrite E. reflexivity. }
  cbn [bind]. apply mapM_total. intros j _.
  destruct (limit_value 4 (column 0 j pop) true (column_some j pop Ne) ltac:(lra)) as (_ & _ & x & _ & Ex & _).
  destruct (limit_value 4 (column 0 j pop) false (column_some j pop Ne) ltac:(lra)) as (_ & _ & y & _ & Ey & _).
  unfold low, high. rewrite Ex, Ey. cbn [bind unfin]. unfold coupled.
  replace (existsb (fun b : bool => b) (map (fun k => outlying (is_outlier 4 [nth k s 0] (column 0 k pop) true true)) (seq 0 (length s))))
    with (existsb (fun k => outlying (is_outlier 4 [nth k s 0] (column 0 k pop) true true)) (seq 0 (length s))).
  - destruct (existsb _ _); [rewrite ext_max_fin|]; reflexivity.
  - generalize (seq 0 (length s)). intro L. induction L as [|k L IH]; [reflexivity|]. cbn [existsb map]. now rewrite IH.
Qed.
Lemma boundaries_empty s : s <> [] -> grid_boundaries [] s = Err RuntimeError.
Proof. destruct s; [congruence|]. intros _. reflexivity. Qed.
Lemma range_value mult start population : population <> [] -> length mult = length start ->
  population_range mult start population =
  Ok (map (fun j => (low (map (adjust mult start) population) (zip_with Rmult start mult) j, high (map (adjust mult start) population) j)) (seq 0 (length start))).
Proof.
  intros Ne L. unfold population_range. rewrite boundaries_value by (destruct population; [congruence|discriminate]). cbn [bind].
  replace (length (zip_with Rmult start mult)) with (length start) by (rewrite zip_with_length; lia).
  generalize (seq 0 (length start)). intro I. induction I as [|j I IH]; [reflexivity|]. cbn [map mapM]. rewrite IH. reflexivity.
Qed.

Section Adjusted.
  Variables (mult start : list R).
  Hypothesis Lm : length mult = length start.
  Lemma adjust_length theta : length theta = length start -> length (adjust mult start theta) = length start.
  Proof. intro H. unfold adjust. rewrite !zip_with_length. lia. Qed.
  Lemma start_nth j : (j < length start)%nat -> nth j (zip_with Rmult start mult) 0 = nth j start 0 * nth j mult 0.
  Proof. intro J. rewrite nth_zip_with with (da := 0) (db := 0) by lia. reflexivity. Qed.
  Lemma adjust_nth theta j : length theta = length start -> (j < length start)%nat ->
    nth j (adjust mult start theta) 0 = Rmax (nth j theta 0 * nth j mult 0) (nth j start 0 * nth j mult 0).
  Proof. intros H J. unfold adjust. rewrite nth_zip_with with (da := 0) (db := 0) by (rewrite zip_with_length; lia). rewrite start_nth by exact J. rewrite nth_zip_with with (da := 0) (db := 0) by lia. reflexivity. Qed.
  Lemma adjust_above population j x : Forall (fun r => length r = length start) population -> (j < length start)%nat -> In x (column 0 j (map (adjust mult start) population)) -> nth j (zip_with Rmult start mult) 0 <= x.
  Proof.
    intros F J I. unfold column in I. rewrite map_map in I. apply in_map_iff in I. destruct I as (r & <- & Ir). rewrite Forall_forall in F. rewrite adjust_nth, start_nth by auto. apply Rmax_r.
  Qed.
  (** The range is finite and ordered, from the start upwards. *)
  Lemma range_order population j : population <> [] -> Forall (fun r => length r = length start) population -> (j < length start)%nat ->
    let pop := map (adjust mult start) population in let s := zip_with Rmult start mult in
    nth j s 0 <= low pop s j /\ low pop s j <= high pop j /\ In (high pop j) (column 0 j pop).
  Proof.
    intros Ne F J pop s. assert (Ne' : column 0 j pop <> []) by (apply column_some; unfold pop; destruct population; [congruence|discriminate]).
    destruct (limit_value 4 (column 0 j pop) true Ne' ltac:(lra)) as (a & b & x & Ef & Ex & Ix & Wx & Mx).
    destruct (limit_value 4 (column 0 j pop) false Ne' ltac:(lra)) as (a' & b' & y & Ef' & Ey & Iy & Wy & My).
    rewrite Ef in Ef'. injection Ef' as <- <-. specialize (My x Ix Wx). cbn beta iota in My. unfold low, high. rewrite Ex, Ey. cbn [unfin].
    pose proof (adjust_above population j x F J Ix) as Hx. fold s in Hx. destruct (coupled (length s) pop s); [rewrite Rmax_right by exact Hx|]; repeat split; try assumption; lra.
  Qed.
End Adjusted.

Definition sg (x : R) : R := if Rlt_dec x 0 then -1 else 1.
Lemma sg_abs x : x <> 0 -> x = sg x * Rabs x /\ 0 < Rabs x /\ sg x * sg x = 1.
Proof. intro H. unfold sg. destruct (Rlt_dec x 0); [rewrite Rabs_left by lra|rewrite Rabs_right by lra]; lra. Qed.

Section Units.
  Variables (a b start mult mult' : list R).
  Let lv := length start.
  Hypothesis La : length a = lv.
  Hypothesis Lb : length b = lv.
  Hypothesis Lm : length mult = lv.
  Hypothesis Lm' : length mult' = lv.
  Hypothesis Na : Forall (fun x => x <> 0) a.
  Hypothesis M1 : forall j, (j < lv)%nat -> nth j mult 0 * nth j mult 0 = 1.
  Hypothesis M2 : forall j, (j < lv)%nat -> nth j mult' 0 = sg (nth j a 0) * nth j mult 0.
  Let al (j : nat) : R := Rabs (nth j a 0).
  Let be (j : nat) : R := nth j b 0 * nth j mult' 0.
  Let A (j : nat) (x : R) : R := al j * x + be j.
  Lemma a_nz j : (j < lv)%nat -> nth j a 0 <> 0.
  Proof. intro J. rewrite Forall_forall in Na. apply Na. apply nth_In. lia. Qed.
  Lemma al_pos j : (j < lv)%nat -> 0 < al j.
  Proof. intro J. apply sg_abs. now apply a_nz. Qed.
  Lemma convert_length t : length t = lv -> length (convert a b t) = lv.
  Proof. intro H. unfold convert. rewrite !zip_with_length. lia. Qed.
  Lemma convert_nth t j : length t = lv -> (j < lv)%nat -> nth j (convert a b t) 0 = nth j t 0 * nth j a 0 + nth j b 0.
  Proof. intros H J. unfold convert. rewrite nth_zip_with with (da := 0) (db := 0) by (try rewrite zip_with_length; lia). rewrite nth_zip_with with (da := 0) (db := 0) by lia. reflexivity. Qed.
  Lemma turned t j : length t = lv -> (j < lv)%nat -> nth j (convert a b t) 0 * nth j mult' 0 = A j (nth j t 0 * nth j mult 0).
  Proof.
    intros H J. rewrite convert_nth by assumption. destruct (sg_abs (nth j a 0) (a_nz j J)) as (E & _ & S1). unfold A, be, al. rewrite M2 by exact J.
    rewrite E at 1. replace ((nth j t 0 * (sg (nth j a 0) * Rabs (nth j a 0)) + nth j b 0) * (sg (nth j a 0) * nth j mult 0)) with
      (sg (nth j a 0) * sg (nth j a 0) * Rabs (nth j a 0) * (nth j t 0 * nth j mult 0) + nth j b 0 * (sg (nth j a 0) * nth j mult 0)) by ring. rewrite S1. ring.
  Qed.
  Lemma turned_adjust t j : length t = lv -> (j < lv)%nat -> nth j (adjust mult' (convert a b start) (convert a b t)) 0 = A j (nth j (adjust mult start t) 0).
  Proof.
    intros H J. rewrite !adjust_nth; try rewrite !convert_length; try assumption; try reflexivity; try lia. rewrite !turned by (assumption || reflexivity).
    apply A_max. now apply al_pos.
  Qed.
  Lemma turned_start j : (j < lv)%nat -> nth j (zip_with Rmult (convert a b start) mult') 0 = A j (nth j (zip_with Rmult start mult) 0).
  Proof. intro J. rewrite !start_nth; try rewrite !convert_length; try assumption; try reflexivity. now apply turned. Qed.
  Lemma turned_column rows j : Forall (fun r => length r = lv) rows -> (j < lv)%nat ->
    column 0 j (map (adjust mult' (convert a b start)) (map (convert a b) rows)) = map (A j) (column 0 j (map (adjust mult start) rows)).
  Proof. intros F J. unfold column. rewrite !map_map. apply map_ext_in. intros r Ir. rewrite Forall_forall in F. apply turned_adjust; auto. Qed.

  Variable (population : list (list R)).
  Hypothesis Hp : Forall (fun r => length r = lv) population.
  Hypothesis Np : population <> [].
  Let pop := map (adjust mult start) population.
  Let pop' := map (adjust mult' (convert a b start)) (map (convert a b) population).
  Let s := zip_with Rmult start mult.
  Let s' := zip_with Rmult (convert a b start) mult'.
  Lemma pop_col j : column 0 j pop <> [].
  Proof. apply column_some. unfold pop. clear - Np. destruct population; [congruence|discriminate]. Qed.
  Lemma turned_limit j smallest : (j < lv)%nat -> unfin (limit_non_outlier 4 (column 0 j pop') smallest) = A j (unfin (limit_non_outlier 4 (column 0 j pop) smallest)).
  Proof.
    intro J. unfold pop'. rewrite turned_column by assumption. fold pop. unfold A. rewrite A_limit by (now apply al_pos).
    destruct (limit_value 4 (column 0 j pop) smallest (pop_col j) ltac:(lra)) as (_ & _ & x & _ & Ex & _). rewrite Ex. reflexivity.
  Qed.
  Lemma turned_coupled : coupled lv pop' s' = coupled lv pop s.
  Proof.
    unfold coupled. assert (G : forall j, In j (seq 0 lv) -> outlying (is_outlier 4 [nth j s' 0] (column 0 j pop') true true) = outlying (is_outlier 4 [nth j s 0] (column 0 j pop) true true)).
    { intros j I. apply in_seq in I. unfold pop', s'. rewrite turned_column, turned_start by (assumption || lia). fold pop s. f_equal. apply (A_outlier (al j) (be j) (al_pos j ltac:(lia)) 4 [nth j s 0] (column 0 j pop)). }
    revert G. generalize (seq 0 lv). intro L. induction L as [|k L IH]; intro G; [reflexivity|]. cbn [existsb]. rewrite G by (now left). f_equal. apply IH. intros j I. apply G. now right.
  Qed.
  Lemma s_length : length s = lv. Proof. unfold s. rewrite zip_with_length. fold lv. lia. Qed.
  Lemma s'_length : length s' = lv. Proof. unfold s'. rewrite zip_with_length, convert_length by reflexivity. lia. Qed.
  Lemma turned_low j : (j < lv)%nat -> low pop' s' j = A j (low pop s j).
  Proof.
    intro J. unfold low. rewrite s_length, s'_length, turned_coupled. destruct (coupled lv pop s); [|now apply turned_start].
    rewrite turned_limit by exact J. unfold s'. rewrite turned_start by exact J. apply A_max. now apply al_pos.
  Qed.
  Lemma turned_high j : (j < lv)%nat -> high pop' j = A j (high pop j).
  Proof. intro J. unfold high. now apply turned_limit. Qed.

  Variables (ent ent' : list R -> list R).
  Hypothesis HE : forall t, length t = lv -> ent' (convert a b t) = ent t.
  (** The entropies at the converted point of the adjusted scale. *)
  Lemma turned_ent t t' : length t = lv -> length t' = lv -> (forall j, (j < lv)%nat -> nth j t' 0 = A j (nth j t 0)) ->
    ent' (zip_with Rmult t' mult') = ent (zip_with Rmult t mult).
  Proof.
    intros Ht Ht' H. rewrite <- HE by (rewrite zip_with_length; lia). f_equal. apply nth_ext with (d := 0) (d' := 0); [rewrite convert_length; rewrite zip_with_length; lia|].
    intros j J. rewrite zip_with_length in J. assert (J' : (j < lv)%nat) by lia. rewrite convert_nth by (try rewrite zip_with_length; lia). rewrite !nth_zip_with with (da := 0) (db := 0) by lia. rewrite H by exact J'.
    destruct (sg_abs (nth j a 0) (a_nz j J')) as (E & _ & S1). unfold A, be, al. rewrite M2 by exact J'. rewrite E at 4.
    replace ((Rabs (nth j a 0) * nth j t 0 + nth j b 0 * (sg (nth j a 0) * nth j mult 0)) * (sg (nth j a 0) * nth j mult 0)) with
      (Rabs (nth j a 0) * nth j t 0 * (sg (nth j a 0) * nth j mult 0) + nth j b 0 * (sg (nth j a 0) * sg (nth j a 0)) * (nth j mult 0 * nth j mult 0)) by ring.
    rewrite S1, M1 by exact J'. ring.
  Qed.
  Let med := population_medians mult start population.
  Let med' := population_medians mult' (convert a b start) (map (convert a b) population).
  Lemma med_length : length med = lv. Proof. unfold med, population_medians. rewrite map_length, seq_length. reflexivity. Qed.
  Lemma med'_length : length med' = lv. Proof. unfold med', population_medians. rewrite map_length, seq_length. now apply convert_length. Qed.
  Lemma turned_median j : (j < lv)%nat -> nth j med' 0 = A j (nth j med 0).
  Proof.
    intro J. unfold med, med', population_medians. rewrite (convert_length start eq_refl). fold lv. rewrite !nth_map_seq0 by exact J.
    rewrite turned_column by assumption. unfold A. rewrite A_median; [reflexivity|now apply al_pos|apply pop_col].
  Qed.
  Lemma turned_scores gp bounds bounds' thetas : Forall (fun r => length r = lv) thetas ->
    (forall j, (j < lv)%nat -> nth j bounds' (0, 0) = (A j (fst (nth j bounds (0, 0))), A j (snd (nth j bounds (0, 0))))) ->
    bit_scores (fun t => ent' (zip_with Rmult t mult')) gp med' s' bounds' (map (adjust mult' (convert a b start)) (map (convert a b) thetas)) =
    bit_scores (fun t => ent (zip_with Rmult t mult)) gp med s bounds (map (adjust mult start) thetas).
  Proof.
    intros Ht HB. unfold bit_scores. rewrite s_length, s'_length. apply map_ext_in. intros j I. apply in_seq in I. assert (J : (j < lv)%nat) by lia.
    rewrite HB by exact J. cbn [fst snd]. unfold s'. rewrite turned_start, turned_column by assumption. fold s. apply A_variable; [now apply al_pos|].
    intro v. apply turned_ent; [rewrite upd_length; apply med_length|rewrite upd_length; apply med'_length|]. intros k K. rewrite !nth_upd_R by (rewrite ?med_length, ?med'_length; exact J).
    destruct (k =? j)%nat eqn:E; [apply Nat.eqb_eq in E; subst k; reflexivity|]. now apply turned_median.
  Qed.
  Lemma turned_1d gp bounds bounds' theta : length theta = lv ->
    (forall j, (j < lv)%nat -> nth j bounds' (0, 0) = (A j (fst (nth j bounds (0, 0))), A j (snd (nth j bounds (0, 0))))) ->
    bit_score_1d (fun t => ent' (zip_with Rmult t mult')) gp (adjust mult' (convert a b start) (convert a b theta)) s' bounds' =
    bit_score_1d (fun t => ent (zip_with Rmult t mult)) gp (adjust mult start theta) s bounds.
  Proof.
    intros Ht HB. unfold bit_score_1d. do 2 f_equal. f_equal. unfold grid_path.
    assert (Lx : length (adjust mult start theta) = lv) by (now apply adjust_length).
    assert (Lx' : length (adjust mult' (convert a b start) (convert a b theta)) = lv) by (rewrite adjust_length; rewrite !convert_length; try reflexivity; assumption).
    apply nth_ext with (d := []) (d' := []).
    - rewrite !map_length, !mapi_length. reflexivity.
    - rewrite map_length, mapi_length. intros k K.
      rewrite nth_indep with (d' := ent' (zip_with Rmult [] mult')) by (rewrite map_length, mapi_length; exact K). rewrite (nth_indep _ [] (ent (zip_with Rmult [] mult))) by (rewrite map_length, mapi_length; exact K).
      rewrite (map_nth (fun t => ent' (zip_with Rmult t mult'))), (map_nth (fun t => ent (zip_with Rmult t mult))).
      rewrite !nth_mapi with (da := 0) by exact K. apply turned_ent; [rewrite mapi_length; exact Lx|rewrite mapi_length; exact Lx'|]. intros j J.
      rewrite !nth_mapi with (da := 0) by lia. rewrite HB by exact J. cbn [fst snd]. rewrite turned_adjust by assumption. unfold s'. rewrite turned_start by exact J. fold s. apply A_coordinate. now apply al_pos.
  Qed.
End Units.
