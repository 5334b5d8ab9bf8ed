(** Outliers. *)
From Coq Require Import Permutation Sorted.
From Verif Require Import Base BaseFacts RBase RFacts M_Mono M_Lik M_Est M_Stat M_Grid S_Grid P_Mono1 P_Grid1.
Local Open Scope R_scope.

Lemma quarter_index q m : (q <= 4)%nat -> ((q * m) / 4 <= m)%nat /\ (((q * m) mod 4 <> 0)%nat -> ((q * m) / 4 + 1 <= m)%nat).
Proof.
  intros H. pose proof (Nat.div_mod (q * m) 4 ltac:(lia)) as E. pose proof (Nat.mod_upper_bound (q * m) 4 ltac:(lia)).
  assert (q * m <= 4 * m)%nat by (apply Nat.mul_le_mono_r; exact H). split; [lia|]. intros. lia.
Qed.
Lemma quartile_value q l : l <> [] -> (q <= 4)%nat -> exists v lo hi, quartile q l = Ok v /\
  (lo <= hi)%nat /\ (hi < length l)%nat /\ lo = (q * (length l - 1) / 4)%nat /\ (hi <= lo + 1)%nat /\ hi = (if ((q * (length l - 1)) mod 4 =? 0)%nat then lo else lo + 1)%nat /\
  v = nth lo (sort_r l) 0 + INR ((q * (length l - 1)) mod 4) / 4 * (nth hi (sort_r l) 0 - nth lo (sort_r l) 0) /\
  nth lo (sort_r l) 0 <= v <= nth hi (sort_r l) 0.
Proof.
  intros Ne Hq. destruct (quarter_index q (length l - 1) Hq) as [A B]. set (p := (q * (length l - 1))%nat) in *.
  assert (L : (0 < length l)%nat) by (destruct l; [congruence|cbn; lia]).
  set (hi := if (p mod 4 =? 0)%nat then (p / 4)%nat else (p / 4 + 1)%nat).
  assert (H1 : (p / 4 <= hi)%nat /\ (hi < length l)%nat /\ (hi <= p / 4 + 1)%nat) by (unfold hi; destruct (Nat.eqb_spec (p mod 4) 0); [lia|specialize (B ltac:(assumption)); lia]).
  exists (nth (p / 4) (sort_r l) 0 + INR (p mod 4) / 4 * (nth hi (sort_r l) 0 - nth (p / 4) (sort_r l) 0)), (p / 4)%nat, hi.
  split; [unfold quartile; destruct l; [congruence|reflexivity]|]. split; [lia|]. split; [lia|]. split; [reflexivity|]. split; [lia|]. split; [reflexivity|]. split; [reflexivity|]. pose proof (sorted_nth_le (sort_r l) (p / 4) hi (sort_r_sorted l) ltac:(lia) ltac:(rewrite sort_r_length; lia)) as S.
    assert (M : 0 <= INR (p mod 4) / 4 <= 1).
    { pose proof (Nat.mod_upper_bound p 4 ltac:(lia)) as U. assert (INR (p mod 4) <= 4) by (replace 4 with (INR 4) by (cbn; ring); apply le_INR; lia). pose proof (pos_INR (p mod 4)). lra. }
    set (w := INR (p mod 4) / 4) in *. split; nra.
Qed.
Lemma quartile_order l q1 q3 : quartile 1 l = Ok q1 -> quartile 3 l = Ok q3 -> q1 <= q3.
Proof.
  intros E1 E3. assert (Ne : l <> []) by (intros ->; discriminate).
  destruct (quartile_value 1 l Ne ltac:(lia)) as (v1 & lo1 & hi1 & F1 & A1 & B1 & C1 & D1 & Z1 & V1 & R1). rewrite E1 in F1. injection F1 as <-.
  destruct (quartile_value 3 l Ne ltac:(lia)) as (v3 & lo3 & hi3 & F3 & A3 & B3 & C3 & D3 & Z3 & V3 & R3). rewrite E3 in F3. injection F3 as <-.
  destruct (le_lt_dec hi1 lo3) as [H|H].
  - pose proof (sorted_nth_le (sort_r l) hi1 lo3 (sort_r_sorted l) H ltac:(rewrite sort_r_length; lia)). lra.
  - assert (L : (length l - 1 <= 1)%nat).
    { destruct (le_lt_dec (length l - 1) 1); [assumption|]. exfalso. assert (lo1 + 1 <= lo3)%nat; [|lia]. subst lo1 lo3.
      pose proof (Nat.div_mod (1 * (length l - 1)) 4 ltac:(lia)). pose proof (Nat.mod_upper_bound (1 * (length l - 1)) 4 ltac:(lia)).
      pose proof (Nat.div_mod (3 * (length l - 1)) 4 ltac:(lia)). pose proof (Nat.mod_upper_bound (3 * (length l - 1)) 4 ltac:(lia)). lia. }
    assert (L' : (length l - 1 = 0 \/ length l - 1 = 1)%nat) by lia. destruct L' as [L'|L']; rewrite L' in *; cbn in *; subst lo1 lo3.
    + lia.
    + subst hi1 hi3. rewrite V1, V3. cbn. pose proof (sorted_nth_le (sort_r l) 0 1 (sort_r_sorted l) ltac:(lia) ltac:(rewrite sort_r_length; lia)). lra.
Qed.
Lemma fences_value f l : l <> [] -> exists q1 q3, quartile 1 l = Ok q1 /\ quartile 3 l = Ok q3 /\ q1 <= q3 /\ fences f l = Ok (q1 - f * (q3 - q1), q3 + f * (q3 - q1)).
Proof.
  intros Ne. destruct (quartile_value 1 l Ne ltac:(lia)) as (v1 & _ & _ & F1 & _). destruct (quartile_value 3 l Ne ltac:(lia)) as (v3 & _ & _ & F3 & _).
  exists v1, v3. split; [exact F1|]. split; [exact F3|]. split; [eapply quartile_order; eassumption|]. unfold fences. rewrite F1, F3. reflexivity.
Qed.
(** Some value always lies inside the fences. *)
Lemma inside_exists f l : l <> [] -> 1 <= f -> exists a b x, fences f l = Ok (a, b) /\ In x l /\ a <= x <= b.
Proof.
  intros Ne Hf. destruct (fences_value f l Ne) as (q1 & q3 & E1 & E3 & O & E). exists (q1 - f * (q3 - q1)), (q3 + f * (q3 - q1)).
  assert (IN : forall k, (k < length l)%nat -> In (nth k (sort_r l) 0) l) by (intros k Hk; apply (Permutation_in _ (sort_r_perm l)), nth_In; rewrite sort_r_length; exact Hk).
  destruct (quartile_value 1 l Ne ltac:(lia)) as (v1 & lo1 & hi1 & F1 & A1 & B1 & C1 & D1 & Z1 & V1 & R1). rewrite E1 in F1. injection F1 as <-.
  destruct (quartile_value 3 l Ne ltac:(lia)) as (v3 & lo3 & hi3 & F3 & A3 & B3 & C3 & D3 & Z3 & V3 & R3). rewrite E3 in F3. injection F3 as <-.
  exists (nth lo3 (sort_r l) 0). split; [exact E|]. split; [apply IN; lia|].
  assert (F0 : 0 <= f * (q3 - q1)) by (apply Rmult_le_pos; lra). split; [|lra].
  destruct (le_lt_dec hi1 lo3) as [H|H].
  - pose proof (sorted_nth_le (sort_r l) hi1 lo3 (sort_r_sorted l) H ltac:(rewrite sort_r_length; lia)). lra.
  - assert (L : (length l - 1 <= 1)%nat).
    { destruct (le_lt_dec (length l - 1) 1); [assumption|]. exfalso. assert (lo1 + 1 <= lo3)%nat; [|lia]. subst lo1 lo3.
      pose proof (Nat.div_mod (1 * (length l - 1)) 4 ltac:(lia)). pose proof (Nat.mod_upper_bound (1 * (length l - 1)) 4 ltac:(lia)).
      pose proof (Nat.div_mod (3 * (length l - 1)) 4 ltac:(lia)). pose proof (Nat.mod_upper_bound (3 * (length l - 1)) 4 ltac:(lia)). lia. }
    assert (L' : (length l - 1 = 0 \/ length l - 1 = 1)%nat) by lia. destruct L' as [L'|L']; rewrite L' in *; cbn in *; subst lo1 lo3.
    + lia.
    + subst hi1 hi3.
      pose proof (sorted_nth_le (sort_r l) 0 1 (sort_r_sorted l) ltac:(lia) ltac:(rewrite sort_r_length; lia)) as S. set (s0 := nth 0 (sort_r l) 0) in *. set (s1 := nth 1 (sort_r l) 0) in *.
      rewrite V1, V3. nra.
Qed.
Lemma ext_min_fold (P : R -> Prop) (dec : forall x, {P x} + {~ P x}) l : (exists x, In x l /\ P x) ->
  exists x, fold_right ext_min PInf (map (fun x => if dec x then Fin x else PInf) l) = Fin x /\ In x l /\ P x /\ forall y, In y l -> P y -> x <= y.
Proof.
  assert (G : forall l, (fold_right ext_min PInf (map (fun x => if dec x then Fin x else PInf) l) = PInf /\ forall y, In y l -> ~ P y) \/
    exists x, fold_right ext_min PInf (map (fun x => if dec x then Fin x else PInf) l) = Fin x /\ In x l /\ P x /\ forall y, In y l -> P y -> x <= y).
  { clear l. induction l as [|a l [[E N]|(x & E & I & Q & M)]]; cbn [map fold_right].
    - left. split; [reflexivity|intros y []].
    - rewrite E. destruct (dec a) as [Pa|Na].
      + right. exists a. unfold ext_min. cbn. split; [reflexivity|]. split; [left; reflexivity|]. split; [exact Pa|]. intros y [->|Hy] Py; [lra|]. exfalso. exact (N y Hy Py).
      + left. split; [reflexivity|]. intros y [<-|Hy]; [exact Na|exact (N y Hy)].
    - rewrite E. right. destruct (dec a) as [Pa|Na].
      + unfold ext_min. cbn [ext_ltb]. destruct (Rlt_dec x a).
        * exists x. split; [reflexivity|]. split; [right; exact I|]. split; [exact Q|]. intros y [<-|Hy] Py; [lra|auto].
        * exists a. split; [reflexivity|]. split; [left; reflexivity|]. split; [exact Pa|]. intros y [<-|Hy] Py; [lra|]. specialize (M y Hy Py). lra.
      + exists x. split; [reflexivity|]. split; [right; exact I|]. split; [exact Q|]. intros y [<-|Hy] Py; [contradiction|auto]. }
  intros (x & I & Q). destruct (G l) as [[_ N]|H]; [exfalso; exact (N x I Q)|exact H].
Qed.
Lemma ext_max_fold (P : R -> Prop) (dec : forall x, {P x} + {~ P x}) l : (exists x, In x l /\ P x) ->
  exists x, fold_right ext_max NInf (map (fun x => if dec x then Fin x else NInf) l) = Fin x /\ In x l /\ P x /\ forall y, In y l -> P y -> y <= x.
Proof.
  assert (G : forall l, (fold_right ext_max NInf (map (fun x => if dec x then Fin x else NInf) l) = NInf /\ forall y, In y l -> ~ P y) \/
    exists x, fold_right ext_max NInf (map (fun x => if dec x then Fin x else NInf) l) = Fin x /\ In x l /\ P x /\ forall y, In y l -> P y -> y <= x).
  { clear l. induction l as [|a l [[E N]|(x & E & I & Q & M)]]; cbn [map fold_right].
    - left. split; [reflexivity|intros y []].
    - rewrite E. destruct (dec a) as [Pa|Na].
      + right. exists a. unfold ext_max. cbn. split; [reflexivity|]. split; [left; reflexivity|]. split; [exact Pa|]. intros y [->|Hy] Py; [lra|]. exfalso. exact (N y Hy Py).
      + left. split; [reflexivity|]. intros y [<-|Hy]; [exact Na|exact (N y Hy)].
    - rewrite E. right. destruct (dec a) as [Pa|Na].
      + unfold ext_max. cbn [ext_ltb]. destruct (Rlt_dec a x).
        * exists x. split; [reflexivity|]. split; [right; exact I|]. split; [exact Q|]. intros y [<-|Hy] Py; [lra|auto].
        * exists a. split; [reflexivity|]. split; [left; reflexivity|]. split; [exact Pa|]. intros y [<-|Hy] Py; [lra|]. specialize (M y Hy Py). lra.
      + exists x. split; [reflexivity|]. split; [right; exact I|]. split; [exact Q|]. intros y [<-|Hy] Py; [contradiction|auto]. }
  intros (x & I & Q). destruct (G l) as [[_ N]|H]; [exfalso; exact (N x I Q)|exact H].
Qed.
Definition within (a b x : R) : Prop := a <= x <= b.
Definition within_dec a b x : {within a b x} + {~ within a b x}.
Proof. unfold within. destruct (Rle_dec a x); [|right; tauto]. destruct (Rle_dec x b); [left; tauto|right; tauto]. Defined.
Lemma masked_dec a b (e : ext) x : (if rleb a x && rleb x b then Fin x else e) = (if within_dec a b x then Fin x else e).
Proof. unfold within_dec, rleb. destruct (Rle_dec a x), (Rle_dec x b); reflexivity. Qed.
Lemma limit_value f l smallest : l <> [] -> 1 <= f -> exists a b x, fences f l = Ok (a, b) /\ limit_non_outlier f l smallest = Ok (Fin x) /\
  In x l /\ a <= x <= b /\ forall y, In y l -> a <= y <= b -> if (smallest : bool) then x <= y else y <= x.
Proof.
  intros Ne Hf. destruct (inside_exists f l Ne Hf) as (a & b & z & E & Iz & Wz). exists a, b. unfold limit_non_outlier. rewrite E. cbn [bind fst snd].
  destruct smallest.
  - destruct (ext_min_fold (within a b) (within_dec a b) l (ex_intro _ z (conj Iz Wz))) as (x & M & I & W & B). exists x. split; [reflexivity|]. split; [|split; [exact I|split; [exact W|exact B]]].
    rewrite <- M. do 2 f_equal. apply map_ext. intros y. apply masked_dec.
  - destruct (ext_max_fold (within a b) (within_dec a b) l (ex_intro _ z (conj Iz Wz))) as (x & M & I & W & B). exists x. split; [reflexivity|]. split; [|split; [exact I|split; [exact W|exact B]]].
    rewrite <- M. do 2 f_equal. apply map_ext. intros y. apply masked_dec.
Qed.
Lemma outside_spec upper lower a b x : outside upper lower (a, b) x = true <-> (lower = true /\ x < a) \/ (upper = true /\ b < x).
Proof.
  unfold outside. cbn [fst snd]. rewrite orb_true_iff, !andb_true_iff, !negb_true_iff. unfold rleb. destruct (Rle_dec a x), (Rle_dec x b); intuition (try discriminate; try lra).
Qed.
