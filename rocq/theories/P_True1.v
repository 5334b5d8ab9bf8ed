(** Averages over answers, and Gibbs' inequality. *)
From Verif Require Import Base BaseFacts RBase RFacts M_Data M_Logit M_Lik M_Est P_Logit P_Logit2 P_Logit3 P_Est1 P_Est2 P_Opt3 P_Max1 S_Logit S_Lik S_Est S_Item S_True.
Import List.
Local Open Scope R_scope.

Definition over {A} (l : list A) (f : A -> R) : R := rsum (map f l).
Lemma over_flat {A B} (g : A -> list B) l f : over (flat_map g l) f = over l (fun x => over (g x) f).
Proof. unfold over. induction l as [|x l IH]; [reflexivity|]. cbn [flat_map map rsum]. now rewrite map_app, rsum_app, IH. Qed.
Lemma over_map {A B} (g : A -> B) l f : over (map g l) f = over l (fun x => f (g x)).
Proof. unfold over. now rewrite map_map. Qed.
Lemma over_ext {A} (l : list A) f g : (forall x, In x l -> f x = g x) -> over l f = over l g.
Proof. intro H. unfold over. f_equal. now apply map_ext_in. Qed.
Lemma over_scal {A} (l : list A) c f : over l (fun x => c * f x) = c * over l f.
Proof. unfold over. induction l as [|x l IH]; cbn [map rsum]; [ring|]. rewrite IH. ring. Qed.
Lemma over_plus {A} (l : list A) f g : over l (fun x => f x + g x) = over l f + over l g.
Proof. unfold over. induction l as [|x l IH]; cbn [map rsum]; [ring|]. rewrite IH. ring. Qed.
Lemma over_seq n f : over (seq 0 n) f = sumn n f.
Proof. unfold over. rewrite RFacts.rsum_map_seq. reflexivity. Qed.
Lemma over_sumn {A} (l : list A) n (f : nat -> A -> R) : over l (fun x => sumn n (fun q => f q x)) = sumn n (fun q => over l (f q)).
Proof. induction n as [|n IH]; cbn [sumn]; [unfold over; induction l as [|x l IHl]; cbn [map rsum]; [reflexivity|rewrite IHl; ring]|]. now rewrite over_plus, IH. Qed.
Lemma over_le {A} (l : list A) f g : (forall x, In x l -> f x <= g x) -> over l f <= over l g /\ ((exists x, In x l /\ f x < g x) -> over l f < over l g).
Proof.
  unfold over. induction l as [|y l IH]; intro H; [split; [cbn; lra|intros (x & [] & _)]|]. destruct IH as [I1 I2]; [intros x Hx; apply H; now right|]. pose proof (H y (or_introl eq_refl)) as Hy. cbn [map rsum]. split; [lra|].
  intros (x & [->|Hx] & Hl); [lra|]. assert (rsum (map f l) < rsum (map g l)) by (apply I2; now exists x). lra.
Qed.

Lemma ln_below x : 0 < x -> ln x <= x - 1 /\ (x <> 1 -> ln x < x - 1).
Proof.
  intro Hx. assert (S : x <> 1 -> ln x < x - 1).
  { intro H. assert (N : ln x <> 0) by (intro E; apply H; rewrite <- (exp_ln x Hx), E; apply exp_0). pose proof (exp_ineq1 _ N) as Q. rewrite exp_ln in Q by exact Hx. lra. }
  split; [|exact S]. destruct (Req_dec x 1) as [->|H]; [rewrite ln_1; lra|]. specialize (S H). lra.
Qed.
(** Gibbs' inequality. *)
Lemma gibbs_list {A} (l : list A) a b : (forall x, In x l -> 0 < a x) -> (forall x, In x l -> 0 < b x) -> over l a = 1 -> over l b = 1 ->
  over l (fun x => a x * ln (b x)) <= over l (fun x => a x * ln (a x)) /\ (over l (fun x => a x * ln (b x)) = over l (fun x => a x * ln (a x)) <-> forall x, In x l -> b x = a x).
Proof.
  intros HA HB SA SB. assert (P : forall x, In x l -> a x * ln (b x) <= a x * ln (a x) + (b x - a x) /\ (b x <> a x -> a x * ln (b x) < a x * ln (a x) + (b x - a x))).
  { intros x Hx. specialize (HA x Hx). specialize (HB x Hx). assert (Hq : 0 < b x / a x) by (apply Rdiv_lt_0_compat; assumption). assert (E : ln (b x) = ln (a x) + ln (b x / a x)) by (rewrite <- ln_mult by assumption; f_equal; field; lra).
    destruct (ln_below _ Hq) as [L1 L2]. assert (EB : b x - a x = a x * (b x / a x - 1)) by (field; lra). rewrite E, EB. split.
    - assert (a x * ln (b x / a x) <= a x * (b x / a x - 1)) by (apply Rmult_le_compat_l; lra). lra.
    - intro N. assert (N' : b x / a x <> 1) by (intro X; apply N; apply (Rmult_eq_reg_r (/ a x)); [rewrite Rinv_r by lra; exact X|apply Rinv_neq_0_compat; lra]). specialize (L2 N'). assert (a x * ln (b x / a x) < a x * (b x / a x - 1)) by (apply Rmult_lt_compat_l; lra). lra. }
  assert (T : over l (fun x => a x * ln (a x) + (b x - a x)) = over l (fun x => a x * ln (a x))).
  { rewrite over_plus. rewrite (over_ext l (fun x => b x - a x) (fun x => b x + -1 * a x)) by (intros; ring). rewrite over_plus, over_scal, SA, SB. ring. }
  destruct (over_le l _ _ (fun x Hx => proj1 (P x Hx))) as [I1 I2]. rewrite T in I1, I2. split; [exact I1|]. split.
  - intros E x Hx. destruct (Req_dec (b x) (a x)) as [|N]; [assumption|]. exfalso. assert (over l (fun x => a x * ln (b x)) < over l (fun x => a x * ln (a x))) by (apply I2; exists x; split; [exact Hx|now apply P]). lra.
  - intro E. apply over_ext. intros x Hx. now rewrite E.
Qed.

(** A constant added for every respondent. *)
Lemma rsum_mapi_shift {A} (g : nat -> A -> R) c l : rsum (mapi (fun r x => g r x + c) l) = rsum (mapi g l) + INR (length l) * c.
Proof. unfold mapi. generalize 0%nat. induction l as [|x l IH]; intro n; [cbn; ring|]. cbn [mapi_from rsum length]. rewrite IH, S_INR. ring. Qed.

(** ** Rows *)
Lemma answer_of_nat k : answer (Some (Z.of_nat k)) = Some k.
Proof. unfold answer. destruct (Z.eqb_spec (Z.of_nat k) (-1)); [lia|]. now rewrite Nat2Z.id. Qed.
Definition row_product (f : nat -> nat -> R) (row : list cell) : R := rprod (mapi (fun i c => match answer c with None => 1 | Some k => f i k end) row).
Lemma row_product_cons f c row : row_product f (c :: row) = match answer c with None => 1 | Some k => f 0%nat k end * row_product (fun i => f (S i)) row.
Proof. unfold row_product. rewrite mapi_cons. reflexivity. Qed.
Lemma rows_total cats : forall seen f, length seen = length cats -> (forall i, (i < length cats)%nat -> sumn (nth i cats O) (f i) = 1) -> over (possible_rows cats seen) (row_product f) = 1.
Proof.
  induction cats as [|K cats IH]; intros [|b seen] f HL HS; try discriminate; [unfold over, row_product; cbn; ring|]. assert (I := IH seen (fun i => f (S i)) ltac:(cbn [length] in HL; lia) ltac:(intros i Hi; apply (HS (S i)); cbn [length]; lia)).
  cbn [possible_rows]. destruct b.
  - rewrite over_flat, over_seq. rewrite (sumn_ext _ _ (fun k => f 0%nat k)); [exact (HS 0%nat ltac:(cbn; lia))|]. intros k _. rewrite over_map. rewrite (over_ext _ _ (fun row => f 0%nat k * row_product (fun i => f (S i)) row)) by (intros row _; rewrite row_product_cons, answer_of_nat; reflexivity). rewrite over_scal, I. ring.
  - rewrite over_map. rewrite (over_ext _ _ (row_product (fun i => f (S i)))) by (intros row _; rewrite row_product_cons; cbn [answer]; ring). exact I.
Qed.
Lemma rows_legal cats : forall seen row, length seen = length cats -> In row (possible_rows cats seen) -> legal_row cats row.
Proof.
  induction cats as [|K cats IH]; intros [|b seen] row HL Hin; try discriminate; [destruct Hin as [<-|[]]; split; [reflexivity|intros [|i] c Hc; discriminate]|]. cbn [possible_rows] in Hin.
  assert (G : exists c row', row = c :: row' /\ In row' (possible_rows cats seen) /\ (c = None \/ exists k, c = Some (Z.of_nat k) /\ (k < K)%nat)).
  { destruct b; [apply in_flat_map in Hin as (k & Hk & Hin); apply in_seq in Hk|]; apply in_map_iff in Hin as (row' & <- & Hin); [exists (Some (Z.of_nat k)), row'|exists None, row']; (split; [reflexivity|]); (split; [exact Hin|]); [right; exists k; split; [reflexivity|lia]|now left]. }
  destruct G as (c & row' & -> & Hin' & Hc). destruct (IH seen row' ltac:(cbn [length] in HL; lia) Hin') as [L1 L2]. split; [cbn [length]; lia|]. intros [|i] c' Hc'; cbn [nth_error] in Hc'.
  - injection Hc' as <-. destruct Hc as [->|(k & -> & Hk)]; [now left|right; right; exists k; auto].
  - cbn [nth]. now apply L2.
Qed.
(** A row can be chosen with any category at an answered item. *)
Lemma rows_equal cats : forall seen f g, length seen = length cats -> (forall i, (i < length cats)%nat -> sumn (nth i cats O) (f i) = 1) -> (forall i, (i < length cats)%nat -> sumn (nth i cats O) (g i) = 1) ->
  (forall row, In row (possible_rows cats seen) -> row_product g row = row_product f row) -> forall i k, (i < length cats)%nat -> nth i seen false = true -> (k < nth i cats O)%nat -> g i k = f i k.
Proof.
  induction cats as [|K cats IH]; intros [|b seen] f g HL HF HG HE i k Hi Hs Hk; try discriminate; [cbn in Hi; lia|]. assert (L' : length seen = length cats) by (cbn [length] in HL; lia).
  assert (F' : forall i, (i < length cats)%nat -> sumn (nth i cats O) (f (S i)) = 1) by (intros j Hj; apply (HF (S j)); cbn [length]; lia). assert (G' : forall i, (i < length cats)%nat -> sumn (nth i cats O) (g (S i)) = 1) by (intros j Hj; apply (HG (S j)); cbn [length]; lia).
  assert (TF := rows_total cats seen (fun i => f (S i)) L' F'). assert (TG := rows_total cats seen (fun i => g (S i)) L' G'). cbn [possible_rows] in HE.
  assert (H0 : b = true -> forall k, (k < K)%nat -> g 0%nat k = f 0%nat k).
  { intros -> k0 Hk0. assert (E : over (possible_rows cats seen) (fun row => g 0%nat k0 * row_product (fun i => g (S i)) row) = over (possible_rows cats seen) (fun row => f 0%nat k0 * row_product (fun i => f (S i)) row)).
    { apply over_ext. intros row Hr. specialize (HE (Some (Z.of_nat k0) :: row)). rewrite !row_product_cons, answer_of_nat in HE. apply HE. apply in_flat_map. exists k0. split; [apply in_seq; lia|]. now apply in_map. }
    rewrite !over_scal, TF, TG in E. lra. }
  destruct i as [|i]; [cbn [nth] in Hs, Hk; now apply H0|]. cbn [nth] in Hs, Hk. cbn [length] in Hi. apply (IH seen (fun i => f (S i)) (fun i => g (S i)) L' F' G'); [|lia|exact Hs|exact Hk].
  intros row Hr. destruct b.
  - (* average over the first answer *)
    assert (SK : sumn K (f 0%nat) = 1) by (exact (HF 0%nat ltac:(cbn; lia))). assert (SG : sumn K (g 0%nat) = 1) by (exact (HG 0%nat ltac:(cbn; lia))).
    assert (E : sumn K (fun k0 => row_product (fun i => g (S i)) row * g 0%nat k0) = sumn K (fun k0 => row_product (fun i => f (S i)) row * f 0%nat k0)).
    { apply sumn_ext. intros k0 Hk0. specialize (HE (Some (Z.of_nat k0) :: row)). rewrite !row_product_cons, answer_of_nat in HE. rewrite Rmult_comm, (Rmult_comm _ (f 0%nat k0)). apply HE. apply in_flat_map. exists k0. split; [apply in_seq; lia|]. now apply in_map. }
    rewrite !sumn_scal, SK, SG in E. lra.
  - specialize (HE (None :: row) (in_map _ _ _ Hr)). rewrite !row_product_cons in HE. cbn [answer] in HE. lra.
Qed.

(** ** Tables *)
Lemma tables_in cats : forall seen data, In data (possible_data cats seen) -> length data = length seen /\ forall r, (r < length seen)%nat -> In (nth r data []) (possible_rows cats (nth r seen [])).
Proof.
  induction seen as [|s seen IH]; intros data H; cbn [possible_data] in H; [destruct H as [<-|[]]; split; [reflexivity|cbn; intros; lia]|]. apply in_flat_map in H as (row & Hr & H). apply in_map_iff in H as (data' & <- & H). destruct (IH data' H) as [L1 L2]. split; [cbn [length]; lia|].
  intros [|r] Hr'; cbn [nth length] in *; [exact Hr|]. apply L2. lia.
Qed.
Lemma tables_legal cats seen data : Forall (fun s => length s = length cats) seen -> In data (possible_data cats seen) -> legal_data cats data.
Proof.
  intros HS H. destruct (tables_in cats seen data H) as [L1 L2]. apply Forall_forall. intros row Hr. apply (In_nth _ _ []) in Hr as (r & Hr & <-). rewrite Forall_forall in HS. apply (rows_legal cats (nth r seen [])); [apply HS, nth_In; lia|apply L2; lia].
Qed.
Lemma average_additive cats : forall seen (q : nat -> list cell -> R) g, (forall r, (r < length seen)%nat -> over (possible_rows cats (nth r seen [])) (q r) = 1) ->
  over (possible_data cats seen) (table_probability q) = 1 /\
  over (possible_data cats seen) (fun data => table_probability q data * rsum (mapi g data)) = sumn (length seen) (fun r => over (possible_rows cats (nth r seen [])) (fun row => q r row * g r row)).
Proof.
  induction seen as [|s seen IH]; intros q g HQ; [unfold over, table_probability; cbn; split; ring|]. destruct (IH (fun r => q (S r)) (fun r => g (S r)) ltac:(intros r Hr; apply (HQ (S r)); cbn [length]; lia)) as [I1 I2].
  assert (Q0 := HQ 0%nat ltac:(cbn; lia)). cbn [nth] in Q0. cbn [possible_data length]. rewrite !over_flat. split.
  - rewrite (over_ext _ _ (q 0%nat)); [exact Q0|]. intros row _. rewrite over_map. rewrite (over_ext _ _ (fun data => q 0%nat row * table_probability (fun r => q (S r)) data)) by (intros; unfold table_probability; rewrite mapi_cons; reflexivity). rewrite over_scal, I1. ring.
  - rewrite sumn_S_first. cbn [nth]. rewrite (over_ext _ _ (fun row => q 0%nat row * g 0%nat row + sumn (length seen) (fun r => over (possible_rows cats (nth r seen [])) (fun row => q (S r) row * g (S r) row)) * q 0%nat row)).
    + rewrite over_plus, over_scal, Q0. ring.
    + intros row _. rewrite over_map. rewrite (over_ext _ _ (fun data => (q 0%nat row * g 0%nat row) * table_probability (fun r => q (S r)) data + q 0%nat row * (table_probability (fun r => q (S r)) data * rsum (mapi (fun r => g (S r)) data)))).
      * rewrite over_plus, !over_scal. rewrite I1, I2. ring.
      * intros data _. unfold table_probability. rewrite !mapi_cons. cbn [rprod rsum]. ring.
Qed.
(** No other probabilities do better on average. *)
Lemma average_best cats seen (q q' : nat -> list cell -> R) :
  (forall r row, (r < length seen)%nat -> In row (possible_rows cats (nth r seen [])) -> 0 < q r row /\ 0 < q' r row) ->
  (forall r, (r < length seen)%nat -> over (possible_rows cats (nth r seen [])) (q r) = 1 /\ over (possible_rows cats (nth r seen [])) (q' r) = 1) ->
  let av b := over (possible_data cats seen) (fun data => table_probability q data * rsum (mapi (fun r row => - ln (b r row)) data)) in
  av q <= av q' /\ (av q' = av q <-> forall r row, (r < length seen)%nat -> In row (possible_rows cats (nth r seen [])) -> q' r row = q r row).
Proof.
  intros HP HT av. assert (E : forall b, av b = - sumn (length seen) (fun r => over (possible_rows cats (nth r seen [])) (fun row => q r row * ln (b r row)))).
  { intro b. unfold av. rewrite (proj2 (average_additive cats seen q (fun r row => - ln (b r row)) (fun r Hr => proj1 (HT r Hr)))). rewrite <- (Rmult_1_l (sumn _ (fun r => over _ (fun row => q r row * ln (b r row))))), <- Ropp_mult_distr_l_reverse, <- sumn_scal. apply sumn_ext. intros r _. rewrite <- over_scal. apply over_ext. intros; ring. }
  assert (G : forall r, (r < length seen)%nat -> _) by (intros r Hr; exact (gibbs_list (possible_rows cats (nth r seen [])) (q r) (q' r) (fun row Hrow => proj1 (HP r row Hr Hrow)) (fun row Hrow => proj2 (HP r row Hr Hrow)) (proj1 (HT r Hr)) (proj2 (HT r Hr)))).
  rewrite !E. assert (I : sumn (length seen) (fun r => over (possible_rows cats (nth r seen [])) (fun row => q r row * ln (q' r row))) <= sumn (length seen) (fun r => over (possible_rows cats (nth r seen [])) (fun row => q r row * ln (q r row)))) by (apply sumn_le; intros r Hr; now apply G).
  split; [lra|]. split.
  - intros Eq r row Hr Hrow. apply (proj2 (G r Hr)); [|exact Hrow]. destruct (Req_dec (over (possible_rows cats (nth r seen [])) (fun x => q r x * ln (q' r x))) (over (possible_rows cats (nth r seen [])) (fun x => q r x * ln (q r x)))) as [|N]; [assumption|]. exfalso.
    assert (sumn (length seen) (fun r => over (possible_rows cats (nth r seen [])) (fun row => q r row * ln (q' r row))) < sumn (length seen) (fun r => over (possible_rows cats (nth r seen [])) (fun row => q r row * ln (q r row)))); [|lra].
    apply sumn_lt; [intros r' Hr'; now apply G|]. exists r. split; [exact Hr|]. destruct (proj1 (G r Hr)) as [|X]; [assumption|congruence].
  - intro H. f_equal. apply sumn_ext. intros r Hr. apply over_ext. intros row Hrow. now rewrite H.
Qed.

(** ** Models *)
Lemma library_total m p : library_model m p -> forall t i, (i < length (em_cats m))%nat -> sumn (nth i (em_cats m) O) (p t i) = 1.
Proof.
  assert (P1 : forall (l : list nat) i, Forall (fun K => (1 <= K)%nat) l -> (i < length l)%nat -> (1 <= nth i l O)%nat) by (intros l i H Hi; rewrite Forall_forall in H; apply H, nth_In, Hi).
  assert (T2 : forall n i, (i < length (repeat 2%nat n))%nat -> nth i (repeat 2%nat n) O = 2%nat) by (intros n i Hi; apply (nth_error_nth _ _ O); apply nth_error_repeat_lt; now rewrite repeat_length in Hi).
  intros [nanl o Ho|nanl o Ho|nanl o Ho|nanl o Ho|nanl o Ho Hi Hd|nanl o Ho] t i HI.
  - cbn [of_sub opl_sub logit_sub em_cats sb_cats] in *. rewrite T2 by exact HI. unfold opl_p. cbn [sumn Nat.eqb]. ring.
  - cbn [of_sub tpl_sub logit_sub em_cats sb_cats] in *. rewrite T2 by exact HI. unfold tpl_p. cbn [sumn Nat.eqb]. ring.
  - change (em_cats (of_sub (thpl_sub nanl o))) with (repeat 2%nat (thpl_items o)) in *. rewrite T2 by exact HI. unfold thpl_p. cbn [sumn Nat.eqb]. ring.
  - change (em_cats (of_sub (gpc_sub nanl o))) with (p_cats o) in *. destruct Ho as (_ & HK & _). unfold gpc_p. apply category_probability_sum. now apply P1.
  - change (em_cats (of_sub (grm_sub nanl o))) with (p_cats o) in *. destruct Ho as (_ & HK & _). pose proof (P1 _ i HK HI) as K1. unfold grm_p. cbv zeta. set (z := fun k => _ + _). rewrite (sumn_telescope _ (geq_probability (nth i (p_cats o) O) z)). unfold geq_probability at 1 2. cbn [Nat.eqb]. rewrite (proj2 (Nat.eqb_neq (nth i (p_cats o) O) 0)) by lia. rewrite Nat.ltb_irrefl. ring.
  - change (em_cats (of_sub (nrm_sub nanl o))) with (nrm_cats o) in *. destruct Ho as (_ & HK & _). unfold nrm_p. apply category_probability_sum. now apply P1.
Qed.
Lemma likelihood_total m p seen t : library_model m p -> length seen = length (em_cats m) -> over (possible_rows (em_cats m) seen) (likelihood p t) = 1.
Proof. intros Hm HL. exact (rows_total (em_cats m) seen (p t) HL (library_total m p Hm t)). Qed.
Lemma marginal_sumn p points weights row : length weights = length points -> marginal_likelihood p points weights row = sumn (length points) (fun q => nth q weights 0 * likelihood p (nth q points []) row).
Proof.
  intro HL. unfold marginal_likelihood. apply rsum_index; [rewrite zip_with_length; lia|]. intros q Hq. rewrite nth_error_zip_with, (nth_error_nth_lt weights q 0), (nth_error_nth_lt points q []) by lia. reflexivity.
Qed.
Lemma marginal_total m p seen points weights : library_model m p -> length seen = length (em_cats m) -> rule (em_lv m) points weights -> over (possible_rows (em_cats m) seen) (marginal_likelihood p points weights) = rsum weights.
Proof.
  intros Hm HL (_ & L1 & _ & _). rewrite (over_ext _ _ (fun row => sumn (length points) (fun q => nth q weights 0 * likelihood p (nth q points []) row))) by (intros; now apply marginal_sumn).
  rewrite over_sumn. rewrite (sumn_ext _ _ (fun q => nth q weights 0)) by (intros q _; rewrite over_scal, (likelihood_total m p seen) by assumption; ring). now rewrite <- L1, <- rsum_nth.
Qed.
Lemma marginal_positive m p points weights row : library_model m p -> rule (em_lv m) points weights -> legal_row (em_cats m) row -> 0 < marginal_likelihood p points weights row.
Proof.
  intros Hm (L0 & L1 & _ & L3) HR. rewrite marginal_sumn by exact L1. apply RFacts.sumn_pos; [destruct points; [congruence|cbn; lia]|]. intros q Hq. apply Rmult_lt_0_compat; [rewrite Forall_forall in L3; apply L3, nth_In; lia|now apply (library_likelihood m p)].
Qed.
(** The share of a row. *)
Lemma rule_total lv points weights : rule lv points weights -> 0 < rsum weights.
Proof.
  intros (L0 & L1 & _ & L3). rewrite rsum_nth. apply RFacts.sumn_pos; [rewrite L1; destruct points; [congruence|cbn; lia]|]. intros q Hq. rewrite Forall_forall in L3. now apply L3, nth_In.
Qed.
Lemma share_total m p seen points weights : library_model m p -> length seen = length (em_cats m) -> rule (em_lv m) points weights -> over (possible_rows (em_cats m) seen) (fun row => marginal_likelihood p points weights row / rsum weights) = 1.
Proof.
  intros Hm HL HR. pose proof (rule_total _ _ _ HR). rewrite (over_ext _ _ (fun row => / rsum weights * marginal_likelihood p points weights row)) by (intros; unfold Rdiv; ring). rewrite over_scal, (marginal_total m p seen points weights Hm HL HR). field. lra.
Qed.
