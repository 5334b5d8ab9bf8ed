(** Property C119: when best item parameters exist. *)
From Verif Require Import Base BaseFacts RBase RFacts M_Data M_Logit M_Lik M_Est M_Opt M_Jml P_Logit P_Logit2 P_Est2 P_Info2 P_Opt1 P_Opt2 P_Opt3 P_Scoreq P_Item1 P_Item2 P_Item3 P_Max1 P_Max3 P_Max5 P_Ex1 P_Ex2 P_Ex3 P_Ex4 P_Ex5 P_Ex6 S_Logit S_Lik S_Est S_Opt S_Max S_Item S_Ex.
Import List.
Local Open Scope R_scope.

(** Joint maximum likelihood with given scores: parameters with the lowest loss exist exactly when no change of the
    parameters favours some answer against some category without disfavouring any other answer. *)
Theorem C119_jml : forall F data thetas,
  parametric F -> legal_data (f_cats F) data -> length thetas = length data -> Forall (fun t => length t = f_lv F) thetas ->
  ((exists v, length v = f_params F /\ lowest_loss F (fun m => jml_loss m (Wide (length (f_cats F)) data) thetas) v) <->
   ~ exists u, length u = f_params F /\ separating F data (fun r => [nth r thetas []]) u).
Proof.
  intros F data thetas HF HD HL HT. destruct (family_soft F HF) as (off & Hoff). rewrite <- (jml_attained F HF off Hoff data thetas HD HL HT).
  split; intros (v & Lv & Hv); exists v; (split; [exact Lv|]); now apply (lowest_minimum F (fun m => jml_loss m (Wide (length (f_cats F)) data) thetas) _ v Lv (jml_value F HF data thetas HD HL HT)).
Qed.
Print Assumptions C119_jml.

(** Marginal maximum likelihood: such a change at all quadrature points lowers every loss. *)
Theorem C119_mml : forall F data points weights u,
  parametric F -> legal_data (f_cats F) data -> points <> [] -> length weights = length points -> Forall (fun t => length t = f_lv F) points -> Forall (fun w => 0 < w) weights ->
  separating F data (fun _ => points) u ->
  forall v, length v = f_params F -> ~ lowest_loss F (fun m => mml_loss m points (map (fun w => Some (Fin (ln w))) weights) (Wide (length (f_cats F)) data)) v.
Proof.
  intros F data points weights u HF HD HP HL HT HW HS v Lv H. destruct (family_soft F HF) as (off & Hoff). apply (lowest_minimum F (fun m => mml_loss m points (map (fun w => Some (Fin (ln w))) weights) (Wide (length (f_cats F)) data)) _ v Lv (mml_value F HF data points weights HD HP HL HT HW)) in H.
  specialize (H (line (f_params F) v u 1) (line_length _ _ _ _)). pose proof (mml_better F HF off Hoff data points weights HD HP HL HT HW u v Lv HS). lra.
Qed.
Print Assumptions C119_mml.

(** A category of an answered item that nobody chose: nothing has the lowest loss, in either estimation. *)
Theorem C119_unused : forall F data i k,
  parametric F -> legal_data (f_cats F) data -> (k < nth i (f_cats F) O)%nat -> unused data i k ->
  (forall thetas, length thetas = length data -> Forall (fun t => length t = f_lv F) thetas ->
     forall v, length v = f_params F -> ~ lowest_loss F (fun m => jml_loss m (Wide (length (f_cats F)) data) thetas) v) /\
  forall points weights, points <> [] -> length weights = length points -> Forall (fun t => length t = f_lv F) points -> Forall (fun w => 0 < w) weights ->
    forall v, length v = f_params F -> ~ lowest_loss F (fun m => mml_loss m points (map (fun w => Some (Fin (ln w))) weights) (Wide (length (f_cats F)) data)) v.
Proof.
  intros F data i k HF HD Hk HU. split.
  - intros thetas HL HT v Lv H. apply (proj1 (C119_jml F data thetas HF HD HL HT)); [now exists v|]. assert (HA : forall r t, (r < length data)%nat -> In t [nth r thetas []] -> length t = f_lv F).
    { intros r t Hr [<-|[]]. rewrite Forall_forall in HT. apply HT, nth_In. lia. }
    (* beyond the last respondent any score will do *)
    destruct (unused_separating F data (fun r => if (r <? length data)%nat then [nth r thetas []] else []) i k HF HD Hk HU) as (u & Lu & H1 & r0 & i0 & k0 & j0 & t0 & Hr0 & Ea & Hj & Ht & Hl).
    + intros r t Ht. destruct (Nat.ltb_spec r (length data)); [now apply (HA r)|destruct Ht].
    + intros r Hr. now rewrite (proj2 (Nat.ltb_lt _ _) Hr).
    + exists u. split; [exact Lu|]. split.
      * intros r i' k' j t Hr Ea' Hj' Ht'. apply (H1 r i' k' j t Hr Ea' Hj'). now rewrite (proj2 (Nat.ltb_lt _ _) Hr).
      * exists r0, i0, k0, j0, t0. rewrite (proj2 (Nat.ltb_lt _ _) Hr0) in Ht. auto.
  - intros points weights HP HL HT HW. destruct (unused_separating F data (fun _ => points) i k HF HD Hk HU) as (u & Lu & HS); [intros _ t Ht; rewrite Forall_forall in HT; now apply HT|auto|]. now apply (C119_mml F data points weights u).
Qed.
Print Assumptions C119_unused.

(** One-parameter model, scores and intercepts estimated together: they exist exactly when respondents and items cannot
    be cut into an upper and a lower part such that the upper respondents have the lower items right and the lower
    respondents have the upper items wrong. *)
Theorem C119_joint : forall nanl items data,
  (0 < items)%nat -> legal_data (repeat 2%nat items) data ->
  ((exists scores b, length scores = length data /\ length b = items /\ lowest_joint nanl items data scores b) <->
   ~ exists person item, cut data person item).
Proof. intros nanl items data HI HD. exact (joint_iff nanl items data HI HD). Qed.
Print Assumptions C119_joint.

(** In particular not when a respondent or an item has answers of one kind only. *)
Theorem C119_joint_alike : forall nanl items data a,
  (0 < items)%nat -> legal_data (repeat 2%nat items) data ->
  (exists r, (r < length data)%nat /\ (exists i, answer (nth i (nth r data []) None) <> None) /\ forall i k, answer (nth i (nth r data []) None) = Some k -> k = a) \/
  (exists i, (exists r, (r < length data)%nat /\ answer (nth i (nth r data []) None) <> None) /\ forall r k, (r < length data)%nat -> answer (nth i (nth r data []) None) = Some k -> k = a) ->
  forall scores b, length scores = length data -> length b = items -> ~ lowest_joint nanl items data scores b.
Proof.
  intros nanl items data a HI HD HA scores b Ls Lb H. apply (proj1 (C119_joint nanl items data HI HD)); [now exists scores, b|].
  assert (T : forall r i k, (r < length data)%nat -> answer (nth i (nth r data []) None) = Some k -> (k < 2)%nat).
  { intros r i k Hr Ea. destruct (legal_answer _ _ i k (row_ok items data HD r Hr) Ea) as [Hk _]. assert (E2 := nth_repeat_two _ _ _ Hk). lia. }
  destruct HA as [(r & Hr & (i & Hi) & HK)|(i & (r & Hr & Hi) & HK)].
  - destruct (answer (nth i (nth r data []) None)) as [k|] eqn:Ea; [|congruence]. assert (Ek := HK i k Ea). assert (Hk := T r i k Hr Ea). subst k. destruct a as [|[|a]]; [| |lia].
    + exists (fun r' => negb (r' =? r)%nat), (fun _ => true). split.
      * intros r' i' k' Hr' Ea'. split; intros X Y; [discriminate|]. apply Bool.negb_false_iff, Nat.eqb_eq in X. subst r'. now apply (HK i').
      * exists r, i, 0%nat. split; [exact Hr|]. split; [exact Ea|]. rewrite Nat.eqb_refl. discriminate.
    + exists (fun r' => (r' =? r)%nat), (fun _ => false). split.
      * intros r' i' k' Hr' Ea'. split; intros X Y; [|discriminate]. apply Nat.eqb_eq in X. subst r'. now apply (HK i').
      * exists r, i, 1%nat. split; [exact Hr|]. split; [exact Ea|]. rewrite Nat.eqb_refl. discriminate.
  - destruct (answer (nth i (nth r data []) None)) as [k|] eqn:Ea; [|congruence]. assert (Ek := HK r k Hr Ea). assert (Hk := T r i k Hr Ea). subst k. destruct a as [|[|a]]; [| |lia].
    + exists (fun _ => false), (fun i' => (i' =? i)%nat). split.
      * intros r' i' k' Hr' Ea'. split; intros X Y; [discriminate|]. apply Nat.eqb_eq in Y. subst i'. now apply (HK r').
      * exists r, i, 0%nat. split; [exact Hr|]. split; [exact Ea|]. rewrite Nat.eqb_refl. discriminate.
    + exists (fun _ => true), (fun i' => negb (i' =? i)%nat). split.
      * intros r' i' k' Hr' Ea'. split; intros X Y; [|discriminate]. apply Bool.negb_false_iff, Nat.eqb_eq in Y. subst i'. now apply (HK r').
      * exists r, i, 1%nat. split; [exact Hr|]. split; [exact Ea|]. rewrite Nat.eqb_refl. discriminate.
Qed.
Print Assumptions C119_joint_alike.

(** One-parameter model, marginal maximum likelihood: the intercepts exist exactly when every item that was answered was
    answered right by somebody and wrong by somebody. *)
Theorem C119_rasch : forall nanl items data points weights,
  (0 < items)%nat -> legal_data (repeat 2%nat items) data -> points <> [] -> length weights = length points -> Forall (fun t => length t = 1%nat) points -> Forall (fun w => 0 < w) weights ->
  let F := opl_family nanl items in
  ((exists b, length b = items /\ lowest_loss F (fun m => mml_loss m points (map (fun w => Some (Fin (ln w))) weights) (Wide items data)) b) <->
   forall i k, (i < items)%nat -> (k < 2)%nat -> ~ unused data i k).
Proof.
  intros nanl items data points weights HI HD HP HL HT HW F. assert (HF : parametric F) by (now constructor). assert (ER : length (f_cats F) = items) by apply repeat_length. split.
  - intros (b & Lb & Hb) i k Hi Hk HU. assert (Hk' : (k < nth i (f_cats F) O)%nat) by (unfold F; cbn [opl_family f_cats]; now rewrite cats_two). destruct (C119_unused F data i k HF HD Hk' HU) as [_ H]. specialize (H points weights HP HL HT HW b Lb). rewrite ER in H. now apply H.
  - intro HU. destruct (rasch_exists nanl items data points weights HI HD HP HL HT HW) as (b & Lb & Hb).
    + intros i a Hi [r0 [Hr0 Ea0]]. assert (X : forall k, (k < 2)%nat -> exists r, answers data i k r).
      { intros k Hk. destruct (usedb data i k) eqn:E; [now apply usedb_iff|]. exfalso. apply (HU i k Hi Hk). split; [now exists r0, a|]. intros r Hr Er. assert (usedb data i k = true) by (apply usedb_iff; now exists r). congruence. }
      split; [apply (X 1%nat); lia|apply (X 0%nat); lia].
    + exists b. split; [exact Lb|]. pose proof (mml_value F HF data points weights HD HP HL HT HW) as V. rewrite ER in V. now apply (lowest_minimum F (fun m => mml_loss m points (map (fun w => Some (Fin (ln w))) weights) (Wide items data)) _ b Lb V).
Qed.
Print Assumptions C119_rasch.

(** With slopes it is not enough that every category was chosen: two items, one respondent with both right, one with
    both wrong, and any quadrature rule without a point at 0 and with equal weight on both sides. *)
Theorem C119_slopes_refuted : forall nanl xs ws,
  xs <> [] -> length ws = length xs -> Forall (fun w => 0 < w) ws -> Forall (fun x => x <> 0) xs -> weight_above xs ws = weight_below xs ws ->
  let F := tpl_family nanl 1 [[true]; [true]] in
  parametric F /\ legal_data (f_cats F) apart /\ (forall i k, (i < 2)%nat -> (k < 2)%nat -> ~ unused apart i k) /\
  forall v, length v = f_params F -> ~ lowest_loss F (fun m => mml_loss m (map (fun x => [x]) xs) (map (fun w => Some (Fin (ln w))) ws) (Wide (length (f_cats F)) apart)) v.
Proof.
  intros nanl xs ws HX HL HW HN HB F. assert (HF : parametric F) by (apply par_tpl; [lia|cbn; lia|repeat constructor]). assert (HD : legal_data (f_cats F) apart).
  { constructor; [|constructor; [|constructor]]; (split; [reflexivity|]); intros i c Hc; right; right; (destruct i as [|[|i]]; cbn in Hc; [| |destruct i; discriminate]); injection Hc as <-; [exists 1%nat|exists 1%nat|exists 0%nat|exists 0%nat]; (split; [reflexivity|cbn; lia]). }
  split; [exact HF|]. split; [exact HD|]. split.
  - intros i k Hi Hk [_ HU]. destruct k as [|[|k]]; [apply (HU 1%nat)|apply (HU 0%nat)|lia]; try (cbn; lia); destruct i as [|[|i]]; try reflexivity; lia.
  - intros v Lv H. assert (HT : Forall (fun t => length t = f_lv F) (map (fun x => [x]) xs)) by (apply Forall_forall; intros t Ht; apply in_map_iff in Ht as (x & <- & _); reflexivity).
    apply (lowest_minimum F (fun m => mml_loss m (map (fun x => [x]) xs) (map (fun w => Some (Fin (ln w))) ws) (Wide (length (f_cats F)) apart)) _ v Lv (mml_value F HF apart (map (fun x => [x]) xs) ws HD ltac:(destruct xs; [congruence|discriminate]) ltac:(now rewrite map_length) HT HW)) in H.
    destruct (apart_none nanl xs ws HX HL HW HN HB v Lv) as (v' & Lv' & Hl). specialize (H v' Lv'). fold F in Hl. lra.
Qed.
Print Assumptions C119_slopes_refuted.

(** Two items and two respondents who have one answer right each, the same one or not.  Crossed answers have best scores
    and intercepts, the other two tables have none; the marginal estimates exist for crossed answers too. *)
Definition crossed : list (list cell) := [[Some 1%Z; Some 0%Z]; [Some 0%Z; Some 1%Z]].
Lemma small_legal data : (forall row, In row data -> length row = 2%nat /\ forall c, In c row -> c = None \/ c = Some 0%Z \/ c = Some 1%Z) -> legal_data (repeat 2%nat 2) data.
Proof.
  intro H. apply Forall_forall. intros row Hr. destruct (H row Hr) as [HL HC]. split; [now rewrite HL|]. intros i c Hc. assert (Hi : (i < 2)%nat) by (rewrite <- HL; apply nth_error_Some; congruence).
  assert (E2 : nth i (repeat 2%nat 2) O = 2%nat) by (destruct i as [|[|i]]; [reflexivity|reflexivity|lia]). rewrite E2. destruct (HC c (nth_error_In _ _ Hc)) as [-> |[-> | ->]]; [left; reflexivity|right; right; exists 0%nat; split; [reflexivity|lia]|right; right; exists 1%nat; split; [reflexivity|lia]].
Qed.
Lemma crossed_legal : legal_data (repeat 2%nat 2) crossed.
Proof. apply small_legal. intros row [<-|[<-|[]]]; (split; [reflexivity|]); intros c [<-|[<-|[]]]; auto. Qed.
Example C119_nonvacuous :
  (exists scores b, length scores = 2%nat /\ length b = 2%nat /\ lowest_joint 0 2 crossed scores b) /\
  cut [[Some 1%Z; Some 1%Z]; [Some 1%Z; Some 0%Z]] (fun _ => true) (fun i => (i =? 1)%nat) /\
  (exists b, length b = 2%nat /\ lowest_loss (opl_family 0 2) (fun m => mml_loss m [[1]; [-1]] (map (fun w => Some (Fin (ln w))) [/ 2; / 2]) (Wide 2 crossed)) b) /\
  unused [[Some 1%Z; Some 1%Z]; [Some 1%Z; Some 0%Z]] 0 0.
Proof.
  split; [|split; [|split]].
  - apply (proj2 (C119_joint 0 2 crossed ltac:(lia) crossed_legal)). intros (person & item & H & r & i & k & Hr & Ea & Hne).
    assert (H00 := H 0%nat 0%nat 1%nat ltac:(cbn; lia) eq_refl). assert (H01 := H 0%nat 1%nat 0%nat ltac:(cbn; lia) eq_refl). assert (H10 := H 1%nat 0%nat 0%nat ltac:(cbn; lia) eq_refl). assert (H11 := H 1%nat 1%nat 1%nat ltac:(cbn; lia) eq_refl).
    assert (E : person 0%nat = item 0%nat /\ person 0%nat = item 1%nat /\ person 1%nat = item 0%nat /\ person 1%nat = item 1%nat).
    { destruct (person 0%nat), (person 1%nat), (item 0%nat), (item 1%nat); repeat split; try reflexivity; exfalso; intuition discriminate. }
    destruct E as (E1 & E2 & E3 & E4). cbn in Hr. destruct r as [|[|r]]; [| |lia]; (destruct i as [|[|i]]; [congruence|congruence|destruct i; discriminate]).
  - split.
    + intros r i k Hr Ea. cbn in Hr. destruct r as [|[|r]]; [| |lia]; (destruct i as [|[|i]]; [| |destruct i; discriminate]); cbn in Ea; injection Ea as <-; (split; intros X Y; [|discriminate]); cbn in Y; try reflexivity; discriminate.
    + exists 0%nat, 0%nat, 1%nat. split; [cbn; lia|]. split; [reflexivity|]. cbn. discriminate.
  - apply (proj2 (C119_rasch 0 2 crossed [[1]; [-1]] [/ 2; / 2] ltac:(lia) crossed_legal ltac:(discriminate) eq_refl ltac:(repeat constructor) ltac:(repeat constructor; lra))).
    intros i k Hi Hk [_ HU]. destruct i as [|[|i]]; [| |lia]; (destruct k as [|[|k]]; [| |lia]); [apply (HU 1%nat)|apply (HU 0%nat)|apply (HU 0%nat)|apply (HU 1%nat)]; try (cbn; lia); reflexivity.
  - split; [exists 0%nat, 1%nat; split; [cbn; lia|reflexivity]|]. intros r Hr. cbn in Hr. destruct r as [|[|r]]; [discriminate|discriminate|lia].
Qed.
(** The two-point Gauss-Hermite rule is a rule as in [C119_slopes_refuted]. *)
Example C119_slopes_nonvacuous : weight_above [1; -1] [/ 2; / 2] = weight_below [1; -1] [/ 2; / 2] /\ 0 < weight_above [1; -1] [/ 2; / 2].
Proof. unfold weight_above, weight_below. cbn [length sumn nth]. destruct (Rlt_dec 0 1), (Rlt_dec 0 (-1)), (Rlt_dec 1 0), (Rlt_dec (-1) 0); lra. Qed.
(** One item with a slope: scores 1 and -1 separate a right from a wrong answer, equal scores do not. *)
Example C119_jml_nonvacuous :
  let F := tpl_family 0 1 [[true]] in
  separating F [[Some 1%Z]; [Some 0%Z]] (fun r => [nth r [[1]; [-1]] []]) [1; 0] /\
  ~ exists u, length u = f_params F /\ separating F [[Some 1%Z]; [Some 0%Z]] (fun r => [nth r [[1]; [1]] []]) u.
Proof.
  cbv zeta. set (F := tpl_family 0 1 [[true]]). assert (ED : forall u x k, drift F u [x] 0 k = INR k * (nth 0 u 0 * x + nth 1 u 0)).
  { intros u x k. unfold drift, F. cbn [tpl_family f_params f_effect]. unfold predictor, slope, tpl_of, unit_vector. cbn. ring. }
  assert (A1 : answer (Some 1%Z) = Some 1%nat) by reflexivity. assert (A0 : answer (Some 0%Z) = Some 0%nat) by reflexivity. split.
  - split.
    + intros r i k j t Hr Ea Hj [<-|[]]. cbn [length] in Hr. destruct r as [|[|r]]; [| |lia]; (destruct i as [|i]; [|destruct i; discriminate]); cbn [nth] in *; rewrite ?A1, ?A0 in Ea; injection Ea as <-; cbn in Hj; rewrite !ED; cbn [nth]; (destruct j as [|[|j]]; [| |lia]); cbn [INR]; lra.
    + exists 0%nat, 0%nat, 1%nat, 0%nat, [1]. split; [cbn; lia|]. split; [reflexivity|]. split; [cbn; lia|]. split; [left; reflexivity|]. rewrite !ED. cbn [nth INR]. lra.
  - intros (u & Lu & H & r & i & k & j & t & Hr & Ea & Hj & [<-|[]] & Hl).
    assert (H0 := H 0%nat 0%nat 1%nat 0%nat [1] ltac:(cbn; lia) eq_refl ltac:(cbn; lia) ltac:(left; reflexivity)). assert (H1 := H 1%nat 0%nat 0%nat 1%nat [1] ltac:(cbn; lia) eq_refl ltac:(cbn; lia) ltac:(left; reflexivity)).
    rewrite !ED in H0, H1. cbn [INR] in H0, H1. assert (Z : nth 0 u 0 * 1 + nth 1 u 0 = 0) by lra. cbn [length] in Hr. destruct r as [|[|r]]; [| |lia]; (destruct i as [|i]; [|destruct i; discriminate]); cbn [nth] in Hl; rewrite !ED, Z in Hl; lra.
Qed.
