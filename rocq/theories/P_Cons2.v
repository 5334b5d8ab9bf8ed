(** Observed shares are near their probabilities (Chebyshev's inequality). *)
From Verif Require Import Base BaseFacts RBase RFacts M_Data M_Logit M_Lik M_Est P_Logit P_Logit2 P_Logit3 P_Est1 P_Est2 P_Opt3 P_Max1 S_Logit S_Lik S_Est S_Item S_True S_Cons P_True1 P_True2 P_True3 P_Cons1.
Import List.
Local Open Scope R_scope.

Lemma moments cats s (q g : list cell -> R) : over (possible_rows cats s) q = 1 -> over (possible_rows cats s) (fun row => q row * g row) = 0 ->
  forall N, let P := table_probability (fun _ => q) in let T := possible_data cats (repeat s N) in
  over T P = 1 /\ over T (fun data => P data * over data g) = 0 /\ over T (fun data => P data * (over data g * over data g)) = INR N * over (possible_rows cats s) (fun row => q row * (g row * g row)).
Proof.
  intros H1 H0 N P. set (V := over (possible_rows cats s) (fun row => q row * (g row * g row))).
  assert (PC : forall row data, P (row :: data) = q row * P data) by (intros; unfold P, table_probability; rewrite mapi_cons; reflexivity). assert (GC : forall row data, over (row :: data) g = g row + over data g) by reflexivity.
  induction N as [|N (I1 & I2 & I3)]; [cbn [repeat possible_data]; unfold over, P, table_probability; cbn; repeat split; ring|]. cbn [repeat possible_data]. rewrite !over_flat. cbv zeta in *. set (T := possible_data cats (repeat s N)) in *. split; [|split].
  - rewrite <- H1. apply over_ext. intros row _. rewrite over_map. rewrite (over_ext _ _ (fun data => q row * P data)) by (intros; apply PC). rewrite over_scal, I1. ring.
  - rewrite <- H0. apply over_ext. intros row _. rewrite over_map. rewrite (over_ext _ _ (fun data => (q row * g row) * P data + q row * (P data * over data g))) by (intros; rewrite PC, GC; ring). rewrite over_plus, !over_scal, I1, I2. ring.
  - rewrite (over_ext _ _ (fun row => q row * (g row * g row) + INR N * V * q row)); [rewrite over_plus, over_scal, H1, S_INR; fold V; ring|]. intros row _. rewrite over_map.
    rewrite (over_ext _ _ (fun data => (q row * (g row * g row)) * P data + ((2 * q row * g row) * (P data * over data g) + q row * (P data * (over data g * over data g))))) by (intros; rewrite PC, GC; ring). rewrite !over_plus, !over_scal, I1, I2, I3. ring.
Qed.
Definition mark (x row : list cell) : R := if list_eq_dec cell_dec x row then 1 else 0.
Lemma times_mark data x : INR (times data x) = over data (mark x).
Proof.
  unfold over, times, mark. induction data as [|row data IH]; [reflexivity|]. cbn [count_occ map rsum]. rewrite <- IH. destruct (list_eq_dec cell_dec row x) as [E|N], (list_eq_dec cell_dec x row) as [E'|N']; try congruence; [rewrite S_INR|]; ring.
Qed.
Lemma over_const {A} (l : list A) c : over l (fun _ => c) = INR (length l) * c.
Proof. unfold over. induction l as [|x l IH]; cbn [map rsum length]; [cbn; ring|]. rewrite IH, S_INR. ring. Qed.
Lemma over_swap {A B} (l : list A) (k : list B) f : over l (fun x => over k (f x)) = over k (fun y => over l (fun x => f x y)).
Proof.
  unfold over. induction l as [|x l IH]; cbn [map rsum]; [symmetry; induction k as [|y k IHk]; cbn [map rsum]; [reflexivity|rewrite IHk; ring]|]. rewrite IH. symmetry. exact (over_plus k (f x) (fun y => rsum (map (fun x0 => f x0 y) l))).
Qed.
Definition near (cats : list nat) (s : list bool) (q : list cell -> R) (eta : R) (data : list (list cell)) : bool :=
  forallb (fun x => if Rlt_dec (Rabs (INR (times data x) / INR (length data) - q x)) eta then true else false) (possible_rows cats s).
Lemma near_iff cats s q eta data : near cats s q eta data = true <-> forall x, In x (possible_rows cats s) -> Rabs (INR (times data x) / INR (length data) - q x) < eta.
Proof.
  unfold near. rewrite forallb_forall. split; intros H x Hx; specialize (H x Hx); destruct (Rlt_dec _ _); try assumption; [discriminate|reflexivity|contradiction].
Qed.
Lemma near_not cats s q eta data : near cats s q eta data = false -> exists x, In x (possible_rows cats s) /\ eta <= Rabs (INR (times data x) / INR (length data) - q x).
Proof.
  unfold near. induction (possible_rows cats s) as [|y l IH]; cbn [forallb]; [discriminate|]. destruct (Rlt_dec _ _) as [|G]; cbn [andb]; intro H; [destruct (IH H) as (x & Hx & Q); exists x; split; [now right|exact Q]|]. exists y. split; [now left|]. now apply Rnot_lt_le.
Qed.
Lemma table_nonneg cats q : forall seen, (forall s row, In s seen -> In row (possible_rows cats s) -> 0 <= q row) -> forall data, In data (possible_data cats seen) -> 0 <= table_probability (fun _ => q) data.
Proof.
  induction seen as [|s seen IH]; intros H data Hd; cbn [possible_data] in Hd; [destruct Hd as [<-|[]]; unfold table_probability; cbn; lra|]. apply in_flat_map in Hd as (row & Hr & Hd). apply in_map_iff in Hd as (data' & <- & Hd). unfold table_probability. rewrite mapi_cons. cbn [rprod]. apply Rmult_le_pos; [apply (H s); [now left|exact Hr]|]. apply IH; [intros; apply (H s0); [now right|assumption]|exact Hd].
Qed.
Lemma near_chance cats s q eta N : length s = length cats -> (forall row, In row (possible_rows cats s) -> 0 <= q row) -> over (possible_rows cats s) q = 1 -> 0 < eta -> (0 < N)%nat ->
  1 - / (INR N * (eta * eta)) <= chance_of cats (repeat s N) (fun _ => q) (near cats s q eta).
Proof.
  intros HS Pq Sq He HN. set (rows := possible_rows cats s) in *. set (T := possible_data cats (repeat s N)). set (P := table_probability (fun _ => q)). apply lt_INR in HN. cbn [INR] in HN.
  set (dev := fun data x => INR (times data x) / INR N - q x).
  (* the expected squared deviation *)
  assert (D : forall x, In x rows -> over T (fun data => P data * (dev data x * dev data x)) <= / INR N * q x).
  { intros x Hx. set (g := fun row => mark x row - q x).
    assert (M1 : over rows (fun row => q row * mark x row) = q x) by (rewrite <- (pick_row cats s x q HS Hx); apply over_ext; intros row _; unfold mark; destruct (list_eq_dec cell_dec x row); ring).
    assert (M0 : over rows (fun row => q row * g row) = 0) by (unfold g; rewrite (over_ext _ _ (fun row => q row * mark x row - q x * q row)) by (intros; ring); rewrite over_minus, over_scal, M1, Sq; ring).
    destruct (moments cats s q g Sq M0 N) as (_ & _ & M2). cbv zeta in M2. fold T P rows in M2.
    assert (V : over rows (fun row => q row * (g row * g row)) = q x - q x * q x).
    { rewrite (over_ext _ _ (fun row => (1 - 2 * q x) * (q row * mark x row) + q x * q x * q row)) by (intros row _; unfold g, mark; destruct (list_eq_dec cell_dec x row); ring). rewrite over_plus, !over_scal, M1, Sq. ring. }
    rewrite (over_ext _ _ (fun data => / INR N * / INR N * (P data * (over data g * over data g)))).
    - rewrite over_scal, M2, V. replace (/ INR N * / INR N * (INR N * (q x - q x * q x))) with (/ INR N * (q x - q x * q x)) by (field; lra). apply Rmult_le_compat_l; [apply Rlt_le, Rinv_0_lt_compat, HN|]. nra.
    - intros data Hd. destruct (same_rows cats s N data Hd) as [L _]. unfold dev. rewrite times_mark. replace (over data g) with (over data (mark x) - INR N * q x) by (unfold g; rewrite over_minus, over_const, L; reflexivity). field. lra. }
  assert (PN : forall data, In data T -> 0 <= P data) by (apply table_nonneg; intros s0 row Hs Hr; apply repeat_spec in Hs; subst s0; auto).
  assert (S1 : over T P = 1) by (apply (moments cats s q (fun _ => 0) Sq); rewrite (over_ext _ _ (fun row => 0 * q row)) by (intros; ring); rewrite over_scal; ring).
  assert (B : over T (fun data => if near cats s q eta data then 0 else P data) <= / (INR N * (eta * eta))).
  { apply Rle_trans with (over T (fun data => / (eta * eta) * over rows (fun x => P data * (dev data x * dev data x)))).
    - apply over_le. intros data Hd. destruct (same_rows cats s N data Hd) as [L _]. specialize (PN data Hd). assert (NN : forall x, In x rows -> 0 <= P data * (dev data x * dev data x)) by (intros; apply Rmult_le_pos; [exact PN|apply Rle_0_sqr]). assert (HI : 0 < / (eta * eta)) by (apply Rinv_0_lt_compat; nra).
      destruct (near cats s q eta data) eqn:En; [apply Rmult_le_pos; [lra|now apply over_nonneg]|]. destruct (near_not _ _ _ _ _ En) as (x & Hx & Q). rewrite L in Q. fold (dev data x) in Q. pose proof (over_term rows _ x NN Hx) as O. cbv beta in O.
      apply Rle_trans with (/ (eta * eta) * (P data * (dev data x * dev data x))); [|apply Rmult_le_compat_l; lra]. replace (P data) with (/ (eta * eta) * (P data * (eta * eta))) at 1 by (field; lra). apply Rmult_le_compat_l; [lra|]. apply Rmult_le_compat_l; [exact PN|]. unfold Rabs in Q. destruct (Rcase_abs (dev data x)); nra.
    - rewrite over_scal, over_swap. replace (/ (INR N * (eta * eta))) with (/ (eta * eta) * (/ INR N * over rows q)) by (rewrite Sq; field; lra). apply Rmult_le_compat_l; [apply Rlt_le, Rinv_0_lt_compat; nra|]. rewrite <- over_scal. apply over_le. exact D. }
  assert (E : over T P = chance_of cats (repeat s N) (fun _ => q) (near cats s q eta) + over T (fun data => if near cats s q eta data then 0 else P data)).
  { change (chance_of cats (repeat s N) (fun _ => q) (near cats s q eta)) with (over T (fun data => if near cats s q eta data then P data else 0)). rewrite <- over_plus. apply over_ext. intros data _. destruct (near cats s q eta data); ring. }
  rewrite S1 in E. lra.
Qed.
Lemma large eta delta : 0 < eta -> 0 < delta -> exists N0, (0 < N0)%nat /\ forall N, (N0 <= N)%nat -> / (INR N * (eta * eta)) < delta.
Proof.
  intros He Hd. assert (Q : 0 < / (delta * (eta * eta))) by (apply Rinv_0_lt_compat; apply Rmult_lt_0_compat; nra). destruct (archimed (/ (delta * (eta * eta)))) as [A _]. set (z := up (/ (delta * (eta * eta)))) in *. assert (Hz : (0 < z)%Z) by (apply lt_IZR; cbn; lra).
  exists (Z.to_nat z). split; [lia|]. intros N HN. apply le_INR in HN. rewrite (INR_IZR_INZ (Z.to_nat z)), Z2Nat.id in HN by lia. assert (HN' : / (delta * (eta * eta)) < INR N) by lra.
  assert (PE : 0 < eta * eta) by nra. assert (PD : 0 < delta * (eta * eta)) by nra. apply (Rmult_lt_compat_r (delta * (eta * eta))) in HN'; [|exact PD]. rewrite Rinv_l in HN' by lra. apply (Rmult_lt_reg_r (INR N * (eta * eta))); [apply Rmult_lt_0_compat; lra|]. rewrite Rinv_l by (apply Rgt_not_eq, Rmult_lt_0_compat; lra). lra.
Qed.
Lemma eventually_near cats s q eta (claim : list (list cell) -> Prop) : length s = length cats -> (forall row, In row (possible_rows cats s) -> 0 <= q row) -> over (possible_rows cats s) q = 1 -> 0 < eta ->
  (forall data, data <> [] -> Forall (fun row => In row (possible_rows cats s)) data -> (forall x, In x (possible_rows cats s) -> Rabs (INR (times data x) / INR (length data) - q x) < eta) -> claim data) -> eventually cats s q claim.
Proof.
  intros HS Pq Sq He HC delta Hd. destruct (large eta delta He Hd) as (N0 & H0 & HN). exists N0. intros N HL. exists (near cats s q eta). split.
  - intros data Hin Hnear. destruct (same_rows cats s N data Hin) as [L F]. apply HC; [intros ->; cbn in L; lia|exact F|now apply near_iff].
  - pose proof (near_chance cats s q eta N HS Pq Sq He ltac:(lia)). specialize (HN N HL). lra.
Qed.
