(** Property C147: how the losses compare. *)
From Coq Require Import Lra.
From Verif Require T_Flex T_Nl.
From Verif Require Import Base BaseFacts RBase RFacts M_Data M_Logit M_Lik M_Est M_Opt M_Jml M_Nl P_Logit P_Est1 P_Est2 P_Est3 P_Opt3 P_True1 S_Logit S_Lik S_Est S_Eap S_Flex S_Nl S_Betw.
Import List.
Local Open Scope R_scope.

Lemma Forall2_of_nth {A B} (P : A -> B -> Prop) : forall l l', length l = length l' -> (forall i x y, nth_error l i = Some x -> nth_error l' i = Some y -> P x y) -> Forall2 P l l'.
Proof.
  induction l as [|x l IH]; intros [|y l'] HL H; try discriminate; constructor; [now apply (H 0%nat)|]. apply IH; [cbn in HL; lia|]. intros i a b Ha Hb. now apply (H (S i)).
Qed.
Lemma nth_of_Forall2 {A B} (P : A -> B -> Prop) l l' : Forall2 P l l' -> length l = length l' /\ forall i x y, nth_error l i = Some x -> nth_error l' i = Some y -> P x y.
Proof.
  induction 1 as [|x y l l' Hxy H [HL IH]]; [split; [reflexivity|intros [|i]; discriminate]|]. split; [cbn; lia|]. intros [|i] a b Ha Hb; cbn in Ha, Hb; [congruence|now apply (IH i)].
Qed.
Lemma rprod_between l l' : Forall2 (fun x y => 0 < x <= y) l l' -> 0 < rprod l <= rprod l'.
Proof.
  induction 1 as [|x y l l' Hxy H IH]; cbn [rprod]; [lra|]. split; [apply Rmult_lt_0_compat; lra|]. apply Rmult_le_compat; lra.
Qed.
Section Compare.
Variables (lv : nat) (cats : list nat) (p : list R -> nat -> nat -> R).
Hypothesis HD : distributions lv cats p.
Lemma category_le_1 t i K k : length t = lv -> nth_error cats i = Some K -> (k < K)%nat -> 0 < p t i k <= 1.
Proof.
  intros Ht Hi Hk. destruct (HD t i K Ht Hi) as [P1 P2]. split; [now apply P1|]. rewrite <- P2. apply (sumn_term_le K (p t i) k); [|exact Hk]. intros j Hj. apply Rlt_le. now apply P1.
Qed.
Lemma fewer_likelihood t row row' : length t = lv -> legal_row cats row -> Forall2 (fun c c' => c' = c \/ c' = None \/ c' = Some (-1)%Z) row row' -> 0 < likelihood p t row <= likelihood p t row'.
Proof.
  intros Ht [HL HR] HF. apply nth_of_Forall2 in HF as [EL HF]. apply rprod_between. apply Forall2_of_nth; [now rewrite !mapi_length|]. intros i x y Hx Hy. rewrite nth_error_mapi in Hx, Hy.
  destruct (nth_error row i) as [c|] eqn:Ec; [|discriminate]. destruct (nth_error row' i) as [c'|] eqn:Ec'; [|discriminate]. cbn in Hx, Hy. injection Hx as <-. injection Hy as <-.
  assert (HB : 0 < match answer c with None => 1 | Some k => p t i k end <= 1).
  { destruct (answer c) as [k|] eqn:E; [|lra]. destruct (nth_error cats i) as [K|] eqn:EK; [|apply nth_error_None in EK; assert (i < length row)%nat by (apply nth_error_Some; congruence); lia].
    apply (category_le_1 t i K); auto. destruct (HR i c Ec) as [-> |[-> |(j & -> & Hj)]]; cbn in E; try discriminate. unfold answer in E. destruct (Z.eqb_spec (Z.of_nat j) (-1)); [lia|]. injection E as <-. rewrite Nat2Z.id. now rewrite (nth_error_nth _ _ O EK) in Hj. }
  destruct (HF i c c' Ec Ec') as [-> |[-> | ->]]; [lra|change (answer None) with (@None nat); lra|change (answer (Some (-1)%Z)) with (@None nat); lra].
Qed.
Lemma likelihood_le_1 t row : length t = lv -> legal_row cats row -> 0 < likelihood p t row <= 1.
Proof.
  intros Ht HR. destruct (fewer_likelihood t row (map (fun _ => None) row) Ht HR) as [A B].
  { apply Forall2_of_nth; [now rewrite map_length|]. intros i x y Hx Hy. rewrite nth_error_map, Hx in Hy. cbn in Hy. injection Hy as <-. auto. }
  split; [exact A|]. replace 1 with (likelihood p t (map (fun _ => None) row)); [exact B|]. unfold likelihood. clear.
  assert (G : forall (l : list R), Forall (fun x => x = 1) l -> rprod l = 1) by (induction 1 as [|x l -> H IH]; cbn [rprod]; [reflexivity|rewrite IH; ring]).
  rewrite G; [reflexivity|]. apply Forall_forall. intros x Hx. apply In_nth_error in Hx as [i Hi]. rewrite nth_error_mapi, nth_error_map in Hi. destruct (nth_error row i); [|discriminate]. cbn in Hi. congruence.
Qed.
End Compare.
(** Weighted sums. *)
Lemma weighted_between (f g : list R -> R) : forall ws ts, length ws = length ts -> Forall (fun w => 0 < w) ws -> (forall t, In t ts -> 0 < f t <= g t) ->
  rsum (zip_with (fun w t => w * f t) ws ts) <= rsum (zip_with (fun w t => w * g t) ws ts) /\ (ts <> [] -> 0 < rsum (zip_with (fun w t => w * f t) ws ts)).
Proof.
  induction ws as [|w ws IH]; intros [|t ts] HL HW H; try discriminate; cbn [zip_with rsum]; [split; [lra|congruence]|].
  destruct (IH ts ltac:(cbn in HL; lia) (Forall_inv_tail HW) (fun u Hu => H u (or_intror Hu))) as [A B]. pose proof (Forall_inv HW) as Hw. cbv beta in Hw. pose proof (H t (or_introl eq_refl)) as [P Q].
  assert (0 < w * f t) by (now apply Rmult_lt_0_compat). assert (w * f t <= w * g t) by (apply Rmult_le_compat_l; lra). split; [lra|]. intros _. destruct ts as [|u us]; [destruct ws; [cbn; lra|discriminate]|]. specialize (B ltac:(discriminate)). lra.
Qed.
Lemma weighted_best (f : list R -> R) : forall ws ts, length ws = length ts -> ts <> [] -> Forall (fun w => 0 < w) ws -> exists q, (q < length ts)%nat /\ rsum (zip_with (fun w t => w * f t) ws ts) <= rsum ws * f (nth q ts []).
Proof.
  induction ws as [|w ws IH]; intros [|t ts] HL Hne HW; try discriminate; [congruence|]. pose proof (Forall_inv HW) as Hw. cbv beta in Hw. destruct ts as [|u us].
  - exists 0%nat. destruct ws; [|discriminate]. cbn. split; [lia|lra].
  - destruct (IH (u :: us) ltac:(cbn in HL |- *; lia) ltac:(discriminate) (Forall_inv_tail HW)) as (q & Hq & E).
    assert (0 < rsum ws) by (destruct ws as [|v vs]; [discriminate|]; pose proof (Forall_inv (Forall_inv_tail HW)) as Hv; cbv beta in Hv; cbn [rsum]; assert (0 <= rsum vs) by (apply P_Est1.rsum_nonneg; eapply Forall_impl; [|exact (Forall_inv_tail (Forall_inv_tail HW))]; intros; cbv beta in *; lra); lra).
    change (zip_with (fun w t => w * f t) (w :: ws) (t :: u :: us)) with (w * f t :: zip_with (fun w t => w * f t) ws (u :: us)). cbn [rsum]. destruct (Rle_lt_dec (f t) (f (nth q (u :: us) []))) as [Hle|Hlt].
    + exists (S q). split; [cbn in *; lia|]. change (nth (S q) (t :: u :: us) []) with (nth q (u :: us) []). assert (w * f t <= w * f (nth q (u :: us) [])) by (apply Rmult_le_compat_l; lra). lra.
    + exists 0%nat. split; [cbn; lia|]. change (nth 0 (t :: u :: us) []) with t. assert (rsum ws * f (nth q (u :: us) []) <= rsum ws * f t) by (apply Rmult_le_compat_l; lra). lra.
Qed.
Lemma weighted_term (f : list R -> R) : forall ws ts q, length ws = length ts -> Forall (fun w => 0 < w) ws -> (forall t, In t ts -> 0 < f t) -> (q < length ts)%nat -> nth q ws 0 * f (nth q ts []) <= rsum (zip_with (fun w t => w * f t) ws ts).
Proof.
  induction ws as [|w ws IH]; intros [|t ts] q HL HW H Hq; try discriminate; [cbn in Hq; lia|]. pose proof (Forall_inv HW) as Hw. cbv beta in Hw. cbn [zip_with rsum].
  destruct (weighted_between f f ws ts ltac:(cbn in HL; lia) (Forall_inv_tail HW)) as [_ B]; [intros u Hu; specialize (H u (or_intror Hu)); lra|]. destruct q as [|q].
  - cbn [nth]. destruct ts as [|u us]; [destruct ws; [cbn; lra|discriminate]|]. specialize (B ltac:(discriminate)). lra.
  - cbn [nth]. assert (0 < w * f t) by (apply Rmult_lt_0_compat; [lra|apply H; now left]). specialize (IH ts q ltac:(cbn in HL; lia) (Forall_inv_tail HW) (fun u Hu => H u (or_intror Hu)) ltac:(cbn in Hq; lia)). lra.
Qed.
Lemma ln_le_of x y : 0 < x <= y -> ln x <= ln y.
Proof. intros [Hx Hy]. destruct (Rle_lt_or_eq_dec x y Hy) as [H| ->]; [|lra]. apply Rlt_le. now apply ln_increasing. Qed.
Lemma weights_positive ws : ws <> [] -> Forall (fun w => 0 < w) ws -> 0 < rsum ws.
Proof. destruct ws as [|w ws]; [congruence|]. intros _ HW. pose proof (Forall_inv HW) as Hw. cbv beta in Hw. cbn [rsum]. assert (0 <= rsum ws) by (apply P_Est1.rsum_nonneg; eapply Forall_impl; [|exact (Forall_inv_tail HW)]; intros; cbv beta in *; lra). lra. Qed.
Lemma sumn_constant n c : sumn n (fun _ => c) = INR n * c.
Proof. induction n as [|n IH]; [cbn; ring|]. cbn [sumn]. rewrite IH, S_INR. ring. Qed.
Lemma rsum_as_sumn {A} (f : A -> R) (d : A) l : rsum (map f l) = sumn (length l) (fun n => f (nth n l d)).
Proof. induction l as [|x l IH]; [reflexivity|]. cbn [map rsum length]. rewrite sumn_S_first, IH. reflexivity. Qed.

(** ** C147 *)
(** Making answers missing never raises a loss; joint losses are never negative, and neither are marginal losses if the weights sum to one
    (C113: they do with Gauss-Hermite points, and sum to more with the default points). *)
Theorem C147_answers : forall m p points weights thetas data data', estimated_by m p -> points <> [] -> data <> [] -> length weights = length points ->
  Forall (fun t => length t = em_lv m) points -> Forall (fun w => 0 < w) weights ->
  Forall (fun t => length t = em_lv m) thetas -> length thetas = length data -> legal_data (em_cats m) data -> fewer_answers data data' ->
  exists L L' J J',
    mml_loss m points (map (fun w => Some (Fin (ln w))) weights) (Wide (em_items m) data) = Ok (Some (Fin L)) /\
    mml_loss m points (map (fun w => Some (Fin (ln w))) weights) (Wide (em_items m) data') = Ok (Some (Fin L')) /\
    jml_loss m (Wide (em_items m) data) thetas = Ok (Some (Fin J)) /\ jml_loss m (Wide (em_items m) data') thetas = Ok (Some (Fin J')) /\
    - INR (length data) * ln (rsum weights) <= L' <= L /\ 0 <= J' <= J.
Proof.
  intros m p points ws thetas data data' [HD (S1 & S2 & _)] Hp Hd HL HF HW HFt HLt HG HFew. pose proof (nth_of_Forall2 _ _ _ HFew) as [EL HN].
  assert (WP : 0 < rsum ws) by (apply weights_positive; [destruct ws; [destruct points; [congruence|discriminate]|discriminate]|exact HW]).
  assert (ROW : forall n, (n < length data)%nat -> legal_row (em_cats m) (nth n data []) /\ Forall2 (fun c c' => c' = c \/ c' = None \/ c' = Some (-1)%Z) (nth n data []) (nth n data' [])).
  { intros n Hn. split; [unfold legal_data in HG; rewrite Forall_forall in HG; apply HG; now apply nth_In|]. apply (HN n); apply nth_error_nth_lt; lia. }
  assert (LEG : forall row row', legal_row (em_cats m) row -> Forall2 (fun c c' => c' = c \/ c' = None \/ c' = Some (-1)%Z) row row' -> legal_row (em_cats m) row').
  { intros row row' [A B] H. apply nth_of_Forall2 in H as [E H]. split; [congruence|]. intros i c' Hc'. destruct (nth_error row i) as [c|] eqn:Ec; [|apply nth_error_None in Ec; assert (i < length row')%nat by (apply nth_error_Some; congruence); lia].
    destruct (H i c c' Ec Hc') as [-> |[-> | ->]]; auto. }
  assert (HG' : legal_data (em_cats m) data').
  { apply Forall_forall. intros r Hr. apply In_nth_error in Hr as [n Hn]. assert (Hn' : (n < length data)%nat) by (rewrite EL; apply nth_error_Some; congruence). destruct (ROW n Hn') as [A B]. rewrite (nth_error_nth _ _ [] Hn) in B. exact (LEG _ _ A B). }
  assert (Hd' : data' <> []) by (intros ->; destruct data; [congruence|discriminate]).
  assert (PT : forall t, In t points -> length t = em_lv m) by (now apply Forall_forall).
  assert (TH : forall n, (n < length data)%nat -> length (nth n thetas []) = em_lv m) by (intros n Hn; rewrite Forall_forall in HFt; apply HFt; apply nth_In; lia).
  set (ml := fun row => rsum (zip_with (fun w t => w * likelihood p t row) ws points)).
  assert (ML : forall n, (n < length data)%nat -> 0 < ml (nth n data []) <= ml (nth n data' []) /\ ml (nth n data' []) <= rsum ws).
  { intros n Hn. destruct (ROW n Hn) as [A B]. destruct (weighted_between (fun t => likelihood p t (nth n data [])) (fun t => likelihood p t (nth n data' [])) ws points HL HW) as [X Y].
    - intros t Ht. apply (fewer_likelihood _ _ _ HD); auto.
    - split; [split; [apply Y; exact Hp|exact X]|]. destruct (weighted_best (fun t => likelihood p t (nth n data' [])) ws points HL Hp HW) as (q & Hq & E). unfold ml.
      destruct (likelihood_le_1 _ _ _ HD (nth q points []) (nth n data' [])) as [Z1 Z2]; [apply PT; now apply nth_In|exact (LEG _ _ A B)|].
      assert (rsum ws * likelihood p (nth q points []) (nth n data' []) <= rsum ws * 1) by (apply Rmult_le_compat_l; lra). lra. }
  exists (- rsum (map (fun row => ln (ml row)) data)), (- rsum (map (fun row => ln (ml row)) data')). do 2 eexists.
  split; [now apply S1|]. split; [now apply S1|]. split; [now apply S2|]. split; [apply S2; auto; lia|].
  rewrite (rsum_as_sumn (fun row => ln (ml row)) [] data), (rsum_as_sumn (fun row => ln (ml row)) [] data'), <- EL. split.
  - assert (X : sumn (length data) (fun n => ln (ml (nth n data []))) <= sumn (length data) (fun n => ln (ml (nth n data' [])))) by (apply sumn_le; intros n Hn; apply ln_le_of; now apply ML).
    assert (Y : sumn (length data) (fun n => ln (ml (nth n data' []))) <= sumn (length data) (fun n => ln (rsum ws))) by (apply sumn_le; intros n Hn; apply ln_le_of; pose proof (ML n Hn); lra). rewrite sumn_constant in Y. lra.
  - assert (X : sumn (length data) (fun n => ln (likelihood p (nth n thetas []) (nth n data []))) <= sumn (length data) (fun n => ln (likelihood p (nth n thetas []) (nth n data' [])))) by (apply sumn_le; intros n Hn; apply ln_le_of; destruct (ROW n Hn); apply (fewer_likelihood _ _ _ HD); auto).
    assert (Y : sumn (length data) (fun n => ln (likelihood p (nth n thetas []) (nth n data' []))) <= sumn (length data) (fun n => 0)) by (apply sumn_le; intros n Hn; rewrite <- ln_1; apply ln_le_of; destruct (ROW n Hn) as [A B]; apply (likelihood_le_1 _ _ _ HD); auto; exact (LEG _ _ A B)). rewrite (sumn_ext _ (fun _ : nat => 0) (fun _ => 0 * 0)) in Y by (intros; ring). rewrite sumn_scal in Y. lra.
Qed.
Print Assumptions C147_answers.
(** The marginal loss is at most the joint loss at any quadrature points plus what their weights cost, and for some points the joint loss is at most the marginal
    loss, corrected for the sum of the weights: with the same item parameters, joint estimation reaches at least the likelihood marginal estimation reports. *)
Theorem C147_between : forall m p points weights data, estimated_by m p -> points <> [] -> data <> [] -> length weights = length points ->
  Forall (fun t => length t = em_lv m) points -> Forall (fun w => 0 < w) weights -> legal_data (em_cats m) data ->
  exists L, mml_loss m points (map (fun w => Some (Fin (ln w))) weights) (Wide (em_items m) data) = Ok (Some (Fin L)) /\
    (forall chosen, length chosen = length data -> Forall (fun q => (q < length points)%nat) chosen -> exists J,
       jml_loss m (Wide (em_items m) data) (map (fun q => nth q points []) chosen) = Ok (Some (Fin J)) /\ L <= J + rsum (map (fun q => - ln (nth q weights 0)) chosen)) /\
    (exists chosen J, length chosen = length data /\ Forall (fun q => (q < length points)%nat) chosen /\
       jml_loss m (Wide (em_items m) data) (map (fun q => nth q points []) chosen) = Ok (Some (Fin J)) /\ J <= L + INR (length data) * ln (rsum weights)).
Proof.
  intros m p points ws data [HD (S1 & S2 & _)] Hp Hd HL HF HW HG.
  assert (WP : 0 < rsum ws) by (apply weights_positive; [destruct ws; [destruct points; [congruence|discriminate]|discriminate]|exact HW]).
  assert (PT : forall t, In t points -> length t = em_lv m) by (now apply Forall_forall).
  assert (RG : forall n, (n < length data)%nat -> legal_row (em_cats m) (nth n data [])) by (intros n Hn; unfold legal_data in HG; rewrite Forall_forall in HG; apply HG; now apply nth_In).
  set (ml := fun row => rsum (zip_with (fun w t => w * likelihood p t row) ws points)).
  assert (PL : forall n t, (n < length data)%nat -> In t points -> 0 < likelihood p t (nth n data []) <= 1) by (intros n t Hn Ht; apply (likelihood_le_1 _ _ _ HD); auto).
  assert (PC : forall chosen, length chosen = length data -> Forall (fun q => (q < length points)%nat) chosen -> jml_loss m (Wide (em_items m) data) (map (fun q => nth q points []) chosen) =
    Ok (Some (Fin (- sumn (length data) (fun n => ln (likelihood p (nth (nth n chosen O) points []) (nth n data []))))))).
  { intros chosen Hc HB. destruct (S2 (map (fun q => nth q points []) chosen) data) as [E _]; auto.
    - apply Forall_forall. intros t Ht. apply in_map_iff in Ht as (q & <- & Hq). apply PT, nth_In. rewrite Forall_forall in HB. now apply HB.
    - now rewrite map_length.
    - rewrite E. do 4 f_equal. apply sumn_ext. intros n Hn. do 2 f_equal. apply nth_error_nth. rewrite nth_error_map, (nth_error_nth_lt chosen n O) by lia. reflexivity. }
  exists (- rsum (map (fun row => ln (ml row)) data)). split; [now apply S1|]. rewrite (rsum_as_sumn (fun row => ln (ml row)) [] data). split.
  - intros chosen Hc HB. eexists. split; [now apply PC|]. rewrite (rsum_as_sumn (fun q => - ln (nth q ws 0)) O chosen), Hc.
    assert (X : sumn (length data) (fun n => ln (nth (nth n chosen O) ws 0) + ln (likelihood p (nth (nth n chosen O) points []) (nth n data []))) <= sumn (length data) (fun n => ln (ml (nth n data [])))).
    { apply sumn_le. intros n Hn. assert (Hq : (nth n chosen O < length points)%nat) by (rewrite Forall_forall in HB; apply HB; apply nth_In; lia).
      assert (Hw : 0 < nth (nth n chosen O) ws 0) by (rewrite Forall_forall in HW; apply HW; apply nth_In; lia).
      destruct (PL n (nth (nth n chosen O) points []) Hn (nth_In _ _ Hq)) as [P1 _]. rewrite <- ln_mult by assumption. apply ln_le_of. split; [now apply Rmult_lt_0_compat|].
      apply (weighted_term (fun t => likelihood p t (nth n data []))); auto. intros t Ht. now apply PL. }
    rewrite sumn_plus in X. rewrite (sumn_ext _ (fun n => - ln (nth (nth n chosen O) ws 0)) (fun n => -1 * ln (nth (nth n chosen O) ws 0))) by (intros; ring). rewrite sumn_scal. lra.
  - assert (BEST : forall n, (n < length data)%nat -> exists q, (q < length points)%nat /\ ln (ml (nth n data [])) <= ln (rsum ws) + ln (likelihood p (nth q points []) (nth n data []))).
    { intros n Hn. destruct (weighted_best (fun t => likelihood p t (nth n data [])) ws points HL Hp HW) as (q & Hq & E). exists q. split; [exact Hq|]. destruct (PL n (nth q points []) Hn (nth_In _ _ Hq)) as [P1 _]. rewrite <- ln_mult by assumption. apply ln_le_of. split.
      - apply (weighted_between (fun t => likelihood p t (nth n data [])) (fun t => likelihood p t (nth n data [])) ws points HL HW); [intros t Ht; pose proof (PL n t Hn Ht); lra|exact Hp].
      - exact E. }
    assert (CH : exists chosen, length chosen = length data /\ forall n, (n < length data)%nat -> (nth n chosen O < length points)%nat /\ ln (ml (nth n data [])) <= ln (rsum ws) + ln (likelihood p (nth (nth n chosen O) points []) (nth n data []))).
    { clear - BEST. generalize dependent (length data). intros N BEST. induction N as [|N IH]; [exists []; split; [reflexivity|intros; lia]|]. destruct IH as (c & Lc & Hc); [intros n Hn; apply BEST; lia|]. destruct (BEST N ltac:(lia)) as (q & Hq & E).
      exists (c ++ [q]). split; [rewrite app_length; cbn; lia|]. intros n Hn. destruct (Nat.eq_dec n N) as [->|Hne]; [rewrite app_nth2, Lc, Nat.sub_diag by lia; cbn; auto|rewrite app_nth1 by lia; apply Hc; lia]. }
    destruct CH as (chosen & Lc & Hc). assert (HB : Forall (fun q => (q < length points)%nat) chosen) by (apply Forall_forall; intros q Hq; apply In_nth with (d := O) in Hq as (n & Hn & <-); apply Hc; lia).
    exists chosen. eexists. split; [exact Lc|]. split; [exact HB|]. split; [now apply PC|]. assert (X : sumn (length data) (fun n => ln (ml (nth n data []))) <= sumn (length data) (fun n => ln (rsum ws) + ln (likelihood p (nth (nth n chosen O) points []) (nth n data [])))) by (apply sumn_le; intros n Hn; now apply Hc).
    rewrite sumn_plus, sumn_constant in X. lra.
Qed.
Print Assumptions C147_between.
(** The parametric models are estimated and scored this way; C144, C145 and C146 show it of the others. *)
Theorem C147_library : forall m p, library_model m p -> estimated_by m p.
Proof.
  intros m p Hm. assert (HD : distributions (em_lv m) (em_cats m) p).
  { intros t i K Ht Hi. assert (Hil : (i < length (em_cats m))%nat) by (apply nth_error_Some; congruence). pose proof (library_total m p Hm t i Hil) as E. rewrite (nth_error_nth _ _ O Hi) in E. split; [|exact E]. intros k Hk. apply (library_pos m p Hm). now rewrite (nth_error_nth _ _ O Hi). }
  split; [exact HD|]. apply T_Flex.scored; [now apply library_has_probabilities|now apply library_has_sum|apply flat_rowwise; now apply library_flat with p|now apply library_items with p|exact HD].
Qed.
Print Assumptions C147_library.
(** A test with a NestedLogit (C146): two items, the second row without an answer to the second item, and then without any. *)
Example C147_nonvacuous : exists m p data', m = nl_model (-1) 2 [4;3]%nat [2;0]%nat (fun thetas => Ok (tpl_probabilities T_Nl.nl_right thetas)) (nominal_wrong T_Nl.nl_wrong) /\ estimated_by m p /\
  legal_data (em_cats m) T_Nl.nl_answers /\ fewer_answers T_Nl.nl_answers data' /\ data' <> T_Nl.nl_answers.
Proof.
  destruct (T_Nl.C146_nominal (-1) T_Nl.nl_right T_Nl.nl_wrong [4;3]%nat [2;0]%nat T_Nl.nl_right_wf T_Nl.nl_wrong_wf eq_refl eq_refl eq_refl ltac:(discriminate) eq_refl T_Nl.nl_keyed) as (c & q & _ & _ & _ & D & HS).
  eexists _, _, [[Some 2%Z; Some 1%Z]; [Some (-1)%Z; None]]. split; [reflexivity|]. split; [split; [exact D|exact HS]|]. split; [exact T_Nl.nl_legal|]. split; [unfold fewer_answers, T_Nl.nl_answers; apply Forall2_cons; [apply Forall2_cons; [now left|apply Forall2_cons; [now left|apply Forall2_nil]]|apply Forall2_cons; [apply Forall2_cons; [right; now right|apply Forall2_cons; [now left|apply Forall2_nil]]|apply Forall2_nil]]|]. discriminate.
Qed.
