(** The answers of different respondents are independent. *)
From Verif Require Import Base BaseFacts RBase RFacts M_Data M_Logit M_Lik M_Est M_Eval S_Logit S_Lik S_Est S_Item S_True S_Eval S_Fit P_Logit P_Logit2 P_Logit3 P_Est1 P_Est2 P_Opt3 P_Max1 P_True1 P_Eval1 P_Fit.
Import List.
Local Open Scope R_scope.

Lemma average_product cats : forall seen (q : nat -> list cell -> R),
  over (possible_data cats seen) (table_probability q) = rprod (map (fun r => over (possible_rows cats (nth r seen [])) (q r)) (seq 0 (length seen))).
Proof.
  induction seen as [|s seen IH]; intros q; [unfold over, table_probability; cbn; ring|]. cbn [possible_data length seq map rprod nth]. rewrite over_flat.
  rewrite (over_ext _ _ (fun row => q 0%nat row * over (possible_data cats seen) (table_probability (fun r => q (S r))))).
  - rewrite over_scal_r, IH. f_equal. rewrite <- seq_shift, map_map. reflexivity.
  - intros row _. rewrite over_map, <- over_scal. apply over_ext. intros data _. unfold table_probability. rewrite mapi_cons. reflexivity.
Qed.
Lemma rprod_mult {A} (f g : A -> R) l : rprod (map (fun x => f x * g x) l) = rprod (map f l) * rprod (map g l).
Proof. induction l as [|x l IH]; cbn [map rprod]; [ring|]. rewrite IH. ring. Qed.
Lemma rprod_mapi_mult {A} (l : list A) : forall (f g : nat -> A -> R), rprod (mapi (fun r x => f r x * g r x) l) = rprod (mapi f l) * rprod (mapi g l).
Proof. induction l as [|x l IH]; intros f g; [cbn; ring|]. rewrite !mapi_cons. cbn [rprod]. rewrite (IH (fun r => f (S r)) (fun r => g (S r))). ring. Qed.
Lemma rprod_one n : forall s N x, (s <= n < s + N)%nat -> rprod (map (fun r => if (r =? n)%nat then x else 1) (seq s N)) = x.
Proof.
  assert (O : forall N s x, (n < s)%nat -> rprod (map (fun r => if (r =? n)%nat then x else 1) (seq s N)) = 1).
  { induction N as [|N IH]; intros s x H; [reflexivity|]. cbn [seq map rprod]. rewrite IH by lia. destruct (Nat.eqb_spec s n); [lia|ring]. }
  intros s N. revert s. induction N as [|N IH]; intros s x H; [lia|]. cbn [seq map rprod]. destruct (Nat.eqb_spec s n).
  - rewrite O by lia. ring.
  - rewrite IH by lia. ring.
Qed.
Lemma rprod_mapi_one (h : list cell -> R) n : forall (data : list (list cell)), (n < length data)%nat ->
  rprod (mapi (fun r row => if (r =? n)%nat then h row else 1) data) = h (nth n data []).
Proof.
  assert (Z : forall (data : list (list cell)) (f : nat -> list cell -> R), (forall r x, f r x = 1) -> rprod (mapi f data) = 1).
  { induction data as [|x data IH]; intros f Hf; [reflexivity|]. rewrite mapi_cons. cbn [rprod]. rewrite Hf, IH; [ring|]. intros; apply Hf. }
  revert n. induction n as [|n IH]; intros [|x data] H; cbn [length] in H; try lia; rewrite mapi_cons; cbn [rprod nth Nat.eqb].
  - rewrite Z by reflexivity. ring.
  - rewrite IH by lia. ring.
Qed.

Section Pairs.
  Variables (M : nat) (cats : list nat) (pattern : list (list bool)) (probs : list (list (list R))).
  Let I := length cats.
  Let N := length pattern.
  Hypotheses (HP : rect N I probs) (HQ : rect N I pattern) (HA : answers_as M cats probs).
  Lemma row_average n a : (n < N)%nat -> on_average cats pattern probs (fun d => a (nth n d [])) = over (possible_rows cats (nth n pattern [])) (fun row => answering probs n row * a row).
  Proof.
    intros Hn. rewrite average_over.
    destruct (average_additive cats pattern (answering probs) (fun r row => if (r =? n)%nat then a row else 0) (fun r Hr => answering_total M cats pattern probs HP HQ HA r Hr)) as [_ A].
    rewrite (over_ext _ _ (fun d => table_probability (answering probs) d * rsum (mapi (fun r row => if (r =? n)%nat then a row else 0) d))).
    - rewrite A. rewrite (sumn_single _ n); [|exact Hn|].
      + rewrite Nat.eqb_refl. reflexivity.
      + intros r Hr Hrn. apply Nat.eqb_neq in Hrn. rewrite Hrn. rewrite (over_ext _ _ (fun _ => 0 * 0)) by (intros; ring). rewrite over_scal. ring.
    - intros d Hd. f_equal. destruct (tables_in cats pattern d Hd) as [L _]. symmetry. apply (rsum_mapi_single a). rewrite L. exact Hn.
  Qed.
  Lemma pair_average n m a b : (n < N)%nat -> (m < N)%nat -> n <> m ->
    on_average cats pattern probs (fun d => a (nth n d []) * b (nth m d [])) = on_average cats pattern probs (fun d => a (nth n d [])) * on_average cats pattern probs (fun d => b (nth m d [])).
  Proof.
    intros Hn Hm D. rewrite (row_average n a Hn), (row_average m b Hm), average_over.
    set (ga := fun r row => if (r =? n)%nat then a row else 1). set (gb := fun r row => if (r =? m)%nat then b row else 1).
    rewrite (over_ext _ _ (table_probability (fun r row => answering probs r row * (ga r row * gb r row)))).
    - rewrite average_product. fold N.
      rewrite (map_ext_in _ (fun r => (if (r =? n)%nat then over (possible_rows cats (nth n pattern [])) (fun row => answering probs n row * a row) else 1) *
                                      (if (r =? m)%nat then over (possible_rows cats (nth m pattern [])) (fun row => answering probs m row * b row) else 1))).
      + rewrite rprod_mult, !rprod_one by lia. reflexivity.
      + intros r Hr. apply in_seq in Hr. unfold ga, gb. destruct (Nat.eqb_spec r n), (Nat.eqb_spec r m); try lia; subst.
        * rewrite Rmult_1_r. apply over_ext. intros; ring.
        * rewrite Rmult_1_l. apply over_ext. intros; ring.
        * transitivity (over (possible_rows cats (nth r pattern [])) (answering probs r)); [apply over_ext; intros; ring|]. rewrite (answering_total M cats pattern probs HP HQ HA r) by (fold N; lia). ring.
    - intros d Hd. destruct (tables_in cats pattern d Hd) as [L _]. unfold table_probability. rewrite !rprod_mapi_mult. unfold ga, gb. rewrite !rprod_mapi_one by (rewrite L; assumption). ring.
  Qed.
  (** Deviations of the number of answers [k] to item [i] from their expectations. *)
  Definition deviation (i k n : nat) (d : list (list cell)) : R := (if (pick (nth n d []) i =? k)%nat then 1 else 0) - nth k (probs_at probs n i) 0.
  Lemma deviation_mean i k n : (n < N)%nat -> (i < I)%nat -> (k < nth i cats O)%nat -> asked pattern n i = true -> on_average cats pattern probs (deviation i k n) = 0 /\
    on_average cats pattern probs (fun d => deviation i k n d * deviation i k n d) = nth k (probs_at probs n i) 0 * (1 - nth k (probs_at probs n i) 0).
  Proof.
    intros Hn Hi Hk Ha. unfold deviation. set (c := nth k (probs_at probs n i) 0).
    rewrite (cell_average M cats pattern probs HP HQ HA n i (fun j => (if (j =? k)%nat then 1 else 0) - c)) by assumption.
    rewrite (cell_average M cats pattern probs HP HQ HA n i (fun j => ((if (j =? k)%nat then 1 else 0) - c) * ((if (j =? k)%nat then 1 else 0) - c))) by assumption.
    destruct (HA n i _ (probs_cell cats pattern probs HP n i Hn Hi)) as (L & K & _ & _ & T). rewrite rsum_nth in T. set (p := probs_at probs n i) in *.
    assert (S1 : sumn (length p) (fun j => nth j p 0 * (if (j =? k)%nat then 1 else 0)) = c).
    { rewrite (sumn_single _ k); [rewrite Nat.eqb_refl; unfold c; ring|lia|]. intros j _ Hne. apply Nat.eqb_neq in Hne. rewrite Hne. ring. }
    split.
    - rewrite (sumn_ext _ _ (fun j => nth j p 0 * (if (j =? k)%nat then 1 else 0) - nth j p 0 * c)) by (intros; ring). rewrite sumn_minus, sumn_scal_r, T, S1. ring.
    - rewrite (sumn_ext _ _ (fun j => (nth j p 0 * (if (j =? k)%nat then 1 else 0)) * (1 - 2 * c) + nth j p 0 * (c * c))).
      + rewrite sumn_plus, !sumn_scal_r, T, S1. ring.
      + intros j _. destruct (j =? k)%nat; ring.
  Qed.
  Lemma deviation_sum i k l : NoDup l -> (i < I)%nat -> (k < nth i cats O)%nat -> (forall n, In n l -> (n < N)%nat /\ asked pattern n i = true) ->
    on_average cats pattern probs (fun d => rsum (map (fun n => deviation i k n d) l)) = 0 /\
    on_average cats pattern probs (fun d => rsum (map (fun n => deviation i k n d) l) * rsum (map (fun n => deviation i k n d) l)) =
      rsum (map (fun n => nth k (probs_at probs n i) 0 * (1 - nth k (probs_at probs n i) 0)) l).
  Proof.
    intros ND Hi Hk HL. split.
    - rewrite (average_sum M cats pattern probs HP HQ HA l (deviation i k)). rewrite (map_ext_in _ (fun _ => 0)); [clear; induction l as [|x l IH]; cbn [map rsum]; [reflexivity|rewrite IH; ring]|].
      intros n Hn. destruct (HL n Hn). now apply deviation_mean.
    - induction ND as [|n l Hnl ND IH]; cbn [map rsum].
      + rewrite (average_ext cats pattern probs _ (fun _ => 0)) by (intros; ring). apply (average_const M); assumption.
      + specialize (IH (fun m Hm => HL m (or_intror Hm))). destruct (HL n (or_introl eq_refl)) as [Hn Ha].
        set (Sd := fun d => rsum (map (fun m => deviation i k m d) l)) in *.
        rewrite (average_ext cats pattern probs _ (fun d => deviation i k n d * deviation i k n d + (rsum (map (fun m => deviation i k n d * deviation i k m d) l) * 2 + Sd d * Sd d))).
        * rewrite !average_plus, average_scal. unfold Sd. rewrite IH. destruct (deviation_mean i k n Hn Hi Hk Ha) as [_ ->].
          rewrite (average_sum M cats pattern probs HP HQ HA l (fun m d => deviation i k n d * deviation i k m d)). rewrite (map_ext_in _ (fun _ => 0)).
          -- replace (rsum (map (fun _ : nat => 0) l)) with 0; [ring|]. clear. induction l as [|x l IH]; cbn [map rsum]; [reflexivity|rewrite <- IH; ring].
          -- intros m Hm. destruct (HL m (or_intror Hm)) as [Hm' Ham].
             pose proof (pair_average n m (fun row => (if (pick row i =? k)%nat then 1 else 0) - nth k (probs_at probs n i) 0) (fun row => (if (pick row i =? k)%nat then 1 else 0) - nth k (probs_at probs m i) 0) Hn Hm' ltac:(intros ->; contradiction)) as PA.
             cbn beta in PA. unfold deviation at 1 2. rewrite PA. destruct (deviation_mean i k n Hn Hi Hk Ha) as [Z _]. unfold deviation in Z. rewrite Z. ring.
        * intros d _. unfold Sd. replace (rsum (map (fun m => deviation i k n d * deviation i k m d) l)) with (deviation i k n d * rsum (map (fun m => deviation i k m d) l)); [ring|].
          clear. induction l as [|x l IH]; cbn [map rsum]; [ring|]. rewrite <- IH. ring.
  Qed.
End Pairs.
(** The mean of p(1-p) is at most that of the mean. *)
Lemma spread_of_mean {A} (p : A -> R) l : l <> [] -> let m := rsum (map p l) / INR (length l) in
  rsum (map (fun x => p x * (1 - p x)) l) / INR (length l) <= m * (1 - m) /\
  ((exists x y, In x l /\ In y l /\ p x <> p y) -> rsum (map (fun x => p x * (1 - p x)) l) / INR (length l) < m * (1 - m)).
Proof.
  intros NE m. assert (L : 0 < INR (length l)) by (destruct l; [now destruct NE|apply lt_0_INR; cbn; lia]).
  assert (Em : rsum (map p l) = m * INR (length l)) by (unfold m; field; lra).
  assert (V : rsum (map (fun x => (p x - m) ^ 2) l) = m * (1 - m) * INR (length l) - rsum (map (fun x => p x * (1 - p x)) l)).
  { enough (forall c, rsum (map (fun x => (p x - c) ^ 2) l) = rsum (map p l) * (1 - 2 * c) + c * c * INR (length l) - rsum (map (fun x => p x * (1 - p x)) l)) as H.
    { rewrite H, Em. ring. }
    intros c. clear. induction l as [|x l IH]; [cbn; ring|]. cbn [map rsum]. cbn [length]. rewrite S_INR, IH. ring. }
  assert (NN : forall l : list A, 0 <= rsum (map (fun x => (p x - m) ^ 2) l)).
  { clear. clearbody m. intros l'. induction l' as [|x l' IH]; cbn [map rsum]; [lra|]. pose proof (pow2_ge_0 (p x - m)). lra. }
  clearbody m.
  assert (Q : rsum (map (fun x => p x * (1 - p x)) l) / INR (length l) = m * (1 - m) - rsum (map (fun x => (p x - m) ^ 2) l) / INR (length l)).
  { rewrite V. field. lra. }
  rewrite Q. split.
  - pose proof (NN l). assert (0 <= rsum (map (fun x => (p x - m) ^ 2) l) / INR (length l)) by (apply Rmult_le_pos; [assumption|left; now apply Rinv_0_lt_compat]). lra.
  - intros (x & y & Hx & Hy & D).
    assert (P : forall z, In z l -> p z <> m -> 0 < rsum (map (fun x => (p x - m) ^ 2) l)).
    { intros z Hz Dz. clear - Hz Dz NN. induction l as [|w l IH]; [destruct Hz|]. cbn [map rsum]. pose proof (NN l). pose proof (pow2_ge_0 (p w - m)). destruct Hz as [->|Hz].
      - assert (0 < (p z - m) ^ 2); [|lra]. cbn [pow]. rewrite Rmult_1_r. assert (p z - m <> 0) by lra. nra.
      - specialize (IH Hz). lra. }
    assert (0 < rsum (map (fun x => (p x - m) ^ 2) l)) by (destruct (Req_EM_T (p x) m) as [E|E]; [apply (P y Hy); lra|apply (P x Hx E)]).
    assert (0 < rsum (map (fun x => (p x - m) ^ 2) l) / INR (length l)) by (apply Rdiv_lt_0_compat; assumption). lra.
Qed.
