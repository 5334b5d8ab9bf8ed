(** How long training takes. *)
From Coq Require Import Classical.
From Verif Require Import Base BaseFacts RBase RFacts M_Lik M_Est M_Stat M_Train S_Train P_Train1.
Local Open Scope R_scope.

Section Length.
  Variables (c : schedule) (lr : R) (l : nat -> fl).
  Hypotheses (Hlr : 0 < lr) (Hf : 0 < sc_factor c < 1) (Ht : sc_threshold c < 1).
  Let rate := fun n => pl_lr (pl c lr l n).
  Let p := sc_patience c.
  Notation imp := (improving c lr l).
  Notation wai := (waited c lr l).
  Notation ev := (event c lr l).
  Lemma rate_law n : (wai n /\ / 100000000 < rate n * (1 - sc_factor c) -> rate (S n) = rate n * sc_factor c) /\
    (~ (wai n /\ / 100000000 < rate n * (1 - sc_factor c)) -> rate (S n) = rate n).
  Proof.
    unfold rate. cbn [pl]. unfold plateau_step. pose proof (rate_pos c lr l Hlr (proj1 Hf) n) as HP.
    assert (HM : Rmax (pl_lr (pl c lr l n) * sc_factor c) 0 = pl_lr (pl c lr l n) * sc_factor c) by (apply Rmax_left, Rlt_le; apply Rmult_lt_0_compat; [exact HP|apply Hf]).
    rewrite HM. unfold waited, improving. destruct (flt (l n) _) eqn:EF; cbn [pl_lr].
    - destruct (sc_patience c <? 0)%nat eqn:E; [apply Nat.ltb_lt in E; lia|]. cbn [pl_lr]. split; [intros [[H _] _]; congruence|reflexivity].
    - destruct (sc_patience c <? S (pl_bad (pl c lr l n)))%nat eqn:E; cbn [pl_lr].
      + apply Nat.ltb_lt in E. destruct (Rlt_dec _ _) as [H|H]; (split; [intros [_ H']|intros H']); try reflexivity; try lra. exfalso. apply H'. split; [split; [congruence|exact E]|lra].
      + apply Nat.ltb_ge in E. split; [intros [[_ H] _]; lia|reflexivity].
  Qed.
  Lemma rate_cases n : (rate (S n) = rate n) \/ (wai n /\ rate (S n) = rate n * sc_factor c).
  Proof.
    destruct (rate_law n) as [R1 R2]. destruct (Rlt_dec (/ 100000000) (rate n * (1 - sc_factor c))) as [H|H]; [|left; apply R2; tauto].
    destruct (improving_dec c lr l n) as [HI|HI]; [left; apply R2; intros [[K _] _]; exact (K HI)|].
    destruct (le_lt_dec (S (pl_bad (pl c lr l n))) (sc_patience c)) as [HB|HB]; [left; apply R2; intros [[_ K] _]; lia|]. right. assert (wai n) by (split; [exact HI|exact HB]). split; [assumption|]. apply R1. split; assumption.
  Qed.
  Lemma drop_waited n : rate (S n) <> rate n -> wai n.
  Proof. destruct (rate_cases n) as [H|[H _]]; [congruence|intros _; exact H]. Qed.
  Lemma drops_flat m n : (m <= n)%nat -> (forall k, (m <= k < n)%nat -> ~ wai k) -> drops rate n = drops rate m.
  Proof.
    induction 1 as [|n H IH]; intros HN; [reflexivity|]. rewrite drops_S, IH by (intros; apply HN; lia). destruct (Req_EM_T (rate (S n)) (rate n)) as [E|E]; [lia|]. exfalso. apply (HN n); [lia|]. now apply drop_waited.
  Qed.
  Lemma drops_need n : (drops rate n * (p + 1) <= n)%nat.
  Proof.
    induction n as [n IH] using lt_wf_ind. destruct n as [|n]; [cbn; lia|]. rewrite drops_S. destruct (Req_EM_T (rate (S n)) (rate n)) as [E|E].
    - rewrite Nat.add_0_r. specialize (IH n ltac:(lia)). lia.
    - pose proof (drop_waited n E) as HW. pose proof (bad_bound c lr l n) as HB. destruct HW as [HI HW]. assert (HP : pl_bad (pl c lr l n) = p) by (unfold p; lia).
      destruct (bad_inv c lr l n) as [[H1 H2]|(m & (L1 & L2 & L3) & H2)].
      + rewrite (drops_flat 0 n); [|lia|intros k Hk Hw; apply (H1 k); [lia|now right]]. change (drops rate 0) with 0%nat. cbn. lia.
      + rewrite (drops_flat (S m) n); [|lia|intros k Hk Hw; apply (L3 k); [lia|now right]]. specialize (IH (S m) ltac:(lia)). rewrite HP in H2. rewrite Nat.mul_add_distr_r. lia.
  Qed.
  Lemma rate_power n : rate n = lr * sc_factor c ^ (drops rate n).
  Proof.
    induction n as [|n IH]; [unfold rate; cbn; lra|]. rewrite drops_S. pose proof (rate_pos c lr l Hlr (proj1 Hf) n) as HP. fold (rate n) in HP.
    destruct (Req_EM_T (rate (S n)) (rate n)) as [E|E]; [now rewrite E, Nat.add_0_r|]. destruct (rate_cases n) as [H|[_ H]]; [congruence|]. rewrite H, IH at 1. rewrite Nat.add_1_r. cbn [pow]. ring.
  Qed.
  Lemma enough limit n : / 100000000 < lr * sc_factor c ^ (limit - 1) * (1 - sc_factor c) -> (drops rate n < limit)%nat -> / 100000000 < rate n * (1 - sc_factor c).
  Proof.
    intros HL HD. rewrite rate_power. eapply Rlt_le_trans; [exact HL|]. apply Rmult_le_compat_r; [lra|]. apply Rmult_le_compat_l; [lra|].
    replace (limit - 1)%nat with (drops rate n + (limit - 1 - drops rate n))%nat by lia. rewrite pow_add. rewrite <- (Rmult_1_r (sc_factor c ^ drops rate n)) at 2. apply Rmult_le_compat_l; [apply pow_le; lra|].
    rewrite <- (pow1 (limit - 1 - drops rate n)). apply pow_incr. lra.
  Qed.
  (** In every [p + 1] steps something happens. *)
  Lemma event_soon n : exists k, (n <= k <= n + p)%nat /\ ev k.
  Proof.
    assert (HB := bad_bound c lr l). 
    destruct (bad_inv c lr l n) as [[H1 H2]|(m & (L1 & L2 & L3) & H2)].
    - destruct (le_lt_dec n p) as [Hn|Hn]; [|specialize (HB n); unfold p in Hn; lia].
      assert (D : forall k, (n <= k)%nat -> (k <= p)%nat -> (exists j, (n <= j <= k)%nat /\ ev j) \/ none_before ev (S k)).
      { intros k Hk. induction Hk as [|k Hk IH]; intros Hkp.
        - destruct (improving_dec c lr l n) as [HI|HI]; [left; exists n; split; [lia|now left]|]. destruct (le_lt_dec (S (pl_bad (pl c lr l n))) (sc_patience c)) as [HX|HX]; [|left; exists n; split; [lia|right; split; assumption]].
          right. intros j Hj. destruct (Nat.eq_dec j n) as [->|]; [intros [K|[_ K]]; [tauto|lia]|apply H1; lia].
        - destruct IH as [(j & Hj & Ej)|IH]; [lia|left; exists j; split; [lia|exact Ej]|]. destruct (improving_dec c lr l (S k)) as [HI|HI]; [left; exists (S k); split; [lia|now left]|].
          destruct (le_lt_dec (S (pl_bad (pl c lr l (S k)))) (sc_patience c)) as [HX|HX]; [|left; exists (S k); split; [lia|right; split; assumption]].
          right. intros j Hj. destruct (Nat.eq_dec j (S k)) as [->|]; [intros [K|[_ K]]; [tauto|lia]|apply IH; lia]. }
      destruct (D p Hn (le_n p)) as [(j & Hj & Ej)|HN]; [exists j; split; [lia|exact Ej]|]. exfalso.
      destruct (bad_inv c lr l (S p)) as [[_ K]|(m & Hm & _)]; [specialize (HB (S p)); unfold p in *; lia|exact (last_none _ _ _ Hm HN)].
    - (* last event m < n: by m + p + 1 <= n + p there is another *)
      assert (HMp : (m + p + 1 >= n)%nat) by (specialize (HB n); unfold p; lia).
      assert (D : forall k, (n <= k)%nat -> (exists j, (n <= j < k)%nat /\ ev j) \/ last_before ev k m).
      { intros k Hk. induction Hk as [|k Hk IH]; [right; split; [exact L1|split; assumption]|]. destruct IH as [(j & Hj & Ej)|(K1 & K2 & K3)]; [left; exists j; split; [lia|exact Ej]|].
        destruct (improving_dec c lr l k) as [HI|HI]; [left; exists k; split; [lia|now left]|]. destruct (le_lt_dec (S (pl_bad (pl c lr l k))) (sc_patience c)) as [HX|HX]; [|left; exists k; split; [lia|right; split; assumption]].
        right. split; [lia|]. split; [exact K2|]. intros j Hj. destruct (Nat.eq_dec j k) as [->|]; [intros [K|[_ K]]; [tauto|lia]|apply K3; lia]. }
      destruct (D (m + p + 2)%nat ltac:(lia)) as [(j & Hj & Ej)|K]; [exists j; split; [lia|exact Ej]|]. exfalso.
      destruct (bad_inv c lr l (m + p + 2)%nat) as [[K1 _]|(m' & Hm & E)]; [exact (last_none _ _ _ K K1)|]. pose proof (last_unique _ _ _ _ K Hm). subst m'. specialize (HB (m + p + 2)%nat). unfold p in *. lia.
  Qed.
  Lemma drops_plateau limit k : / 100000000 < lr * sc_factor c ^ (limit - 1) * (1 - sc_factor c) -> (forall n, (k <= n)%nat -> (n < k + limit * (p + 1))%nat -> ~ imp n) ->
    (limit <= drops rate (k + limit * (p + 1)))%nat.
  Proof.
    intros HL HN. assert (G : forall j, (j <= limit)%nat -> (j <= drops rate (k + j * (p + 1)))%nat).
    { induction j as [|j IH]; intros Hj; [lia|]. specialize (IH ltac:(lia)). destruct (event_soon (k + j * (p + 1))) as (q & Hq & [HI|HW]).
      - exfalso. apply (HN q); [lia| |exact HI]. assert ((j + 1) * (p + 1) <= limit * (p + 1))%nat by (apply Nat.mul_le_mono_r; lia). lia.
      - destruct (le_lt_dec limit (drops rate q)) as [HD|HD].
        + pose proof (drops_mono rate q (k + S j * (p + 1)) ltac:(cbn; lia)). lia.
        + assert (drops rate (S q) = S (drops rate q)).
          { rewrite drops_S. destruct (Req_EM_T (rate (S q)) (rate q)) as [E|E]; [|lia]. exfalso. pose proof (enough limit q HL HD) as HE. rewrite (proj1 (rate_law q) (conj HW HE)) in E. pose proof (rate_pos c lr l Hlr (proj1 Hf) q) as HP. fold (rate q) in HP. nra. }
          pose proof (drops_mono rate (k + j * (p + 1)) q ltac:(lia)). pose proof (drops_mono rate (S q) (k + S j * (p + 1)) ltac:(cbn; lia)). lia. }
    apply G. lia.
  Qed.
  (** Improvements: each clearly below the one before. *)
  Definition impb (n : nat) : bool := if improving_dec c lr l n then true else false.
  Definition improvements (n : nat) : nat := length (filter impb (seq 0 n)).
  Lemma improvements_S n : improvements (S n) = (improvements n + if impb n then 1 else 0)%nat.
  Proof. unfold improvements. rewrite seq_S, filter_app, app_length. cbn [filter Nat.add]. destruct (impb n); cbn [length]; lia. Qed.
  Definition waib (n : nat) : bool := if improving_dec c lr l n then false else (sc_patience c <? S (pl_bad (pl c lr l n)))%nat.
  Lemma waib_spec n : waib n = true <-> wai n.
  Proof. unfold waib, waited. destruct (improving_dec c lr l n); [split; [discriminate|tauto]|]. rewrite Nat.ltb_lt. tauto. Qed.
  Definition waits (n : nat) : nat := length (filter waib (seq 0 n)).
  Lemma waits_S n : waits (S n) = (waits n + if waib n then 1 else 0)%nat.
  Proof. unfold waits. rewrite seq_S, filter_app, app_length. cbn [filter Nat.add]. destruct (waib n); cbn [length]; lia. Qed.
  Lemma counts_mono n m : (n <= m)%nat -> (improvements n + waits n <= improvements m + waits m)%nat.
  Proof. induction 1 as [|m H IH]; [lia|]. rewrite improvements_S, waits_S. lia. Qed.
  Lemma events_count j : (j <= improvements (j * (p + 1)) + waits (j * (p + 1)))%nat.
  Proof.
    induction j as [|j IH]; [lia|]. destruct (event_soon (j * (p + 1))) as (q & Hq & HE).
    pose proof (counts_mono (j * (p + 1)) q ltac:(lia)). pose proof (counts_mono (S q) (S j * (p + 1)) ltac:(cbn; lia)).
    assert (improvements q + waits q + 1 <= improvements (S q) + waits (S q))%nat; [|lia]. rewrite improvements_S, waits_S. destruct HE as [HI|HW].
    - unfold impb. destruct (improving_dec c lr l q); [lia|tauto].
    - apply waib_spec in HW. rewrite HW. lia.
  Qed.
  Lemma waits_drops limit n : / 100000000 < lr * sc_factor c ^ (limit - 1) * (1 - sc_factor c) -> (drops rate n < limit)%nat -> waits n = drops rate n.
  Proof.
    intros HL. induction n as [|n IH]; intros HD; [reflexivity|]. pose proof (drops_mono rate n (S n) ltac:(lia)). rewrite waits_S, IH by lia. rewrite drops_S. f_equal.
    destruct (waib n) eqn:E.
    - apply waib_spec in E. destruct (Req_EM_T (rate (S n)) (rate n)) as [E'|]; [|reflexivity]. exfalso. pose proof (enough limit n HL ltac:(lia)) as HE. rewrite (proj1 (rate_law n) (conj E HE)) in E'. pose proof (rate_pos c lr l Hlr (proj1 Hf) n) as HP. fold (rate n) in HP. nra.
    - destruct (Req_EM_T (rate (S n)) (rate n)) as [E'|E']; [reflexivity|]. apply drop_waited, waib_spec in E'. congruence.
  Qed.
  Lemma improvements_value n L x0 : (forall m, (m < n)%nat -> exists x, l m = Some (Fin x) /\ L <= x) -> 0 < L -> l 0%nat = Some (Fin x0) -> 0 <= sc_threshold c ->
    (0 < n)%nat -> exists x, pl_best (pl c lr l n) = Some (Fin x) /\ L <= x /\ (1 <= improvements n)%nat /\ x <= x0 * (1 - sc_threshold c) ^ (improvements n - 1).
  Proof.
    intros HB HL H0 Ht0. induction n as [|n IH]; intros Hn; [lia|].
    assert (EB : pl_best (pl c lr l (S n)) = if flt (l n) (fmul (pl_best (pl c lr l n)) (Some (Fin (1 - sc_threshold c)))) then l n else pl_best (pl c lr l n)).
    { cbn [pl]. unfold plateau_step. destruct (flt _ _); destruct (_ <? _)%nat; reflexivity. }
    destruct (HB n ltac:(lia)) as (y & Hy & HLy). destruct n as [|n].
    - assert (EI : flt (l 0%nat) (fmul (pl_best (pl c lr l 0)) (Some (Fin (1 - sc_threshold c)))) = true) by (apply flt_clearly; [exact Ht|discriminate|rewrite H0; exact I]).
      rewrite EI in EB. exists x0. rewrite EB, H0. assert (x0 = y) by congruence. subst y. rewrite improvements_S. change (improvements 0) with 0%nat. unfold impb. destruct (improving_dec c lr l 0) as [|X]; [|exfalso; apply X; exact EI]. cbn. split; [reflexivity|]. split; [exact HLy|]. split; [lia|]. lra.
    - destruct IH as (x & E & HLx & H1 & Hx); [intros m Hm; apply HB; lia|lia|]. rewrite improvements_S. unfold impb. destruct (improving_dec c lr l (S n)) as [HI|HI].
      + unfold improving in HI. rewrite HI in EB. exists y. rewrite EB. split; [exact Hy|]. split; [exact HLy|]. split; [lia|]. rewrite E in HI. apply flt_clearly in HI; [|exact Ht|discriminate]. rewrite Hy in HI. cbn in HI.
        replace (improvements (S n) + 1 - 1)%nat with (S (improvements (S n) - 1)) by lia. cbn [pow]. assert (HP : 0 <= 1 - sc_threshold c) by lra. nra.
      + assert (F : flt (l (S n)) (fmul (pl_best (pl c lr l (S n))) (Some (Fin (1 - sc_threshold c)))) = false) by (unfold improving in HI; destruct (flt _ _); congruence). rewrite F in EB. exists x. rewrite EB. split; [exact E|]. split; [exact HLx|]. split; [lia|]. now rewrite Nat.add_0_r.
  Qed.
  (** Losses bounded below by a positive number: only so many improvements. *)
  Lemma stops_by limit K L x0 N : / 100000000 < lr * sc_factor c ^ (limit - 1) * (1 - sc_factor c) -> 0 <= sc_threshold c -> 0 < L -> l 0%nat = Some (Fin x0) ->
    (forall m, (m < N)%nat -> exists x, l m = Some (Fin x) /\ L <= x) -> x0 * (1 - sc_threshold c) ^ K < L -> (forall n, (n < N)%nat -> (drops rate n < limit)%nat) ->
    (N <= (limit + K) * (p + 1))%nat.
  Proof.
    intros HR Ht0 HL H0 HB HK HD. destruct (le_lt_dec N ((limit + K) * (p + 1))) as [|HN]; [assumption|exfalso].
    set (q := ((limit + K) * (p + 1))%nat) in *. pose proof (events_count (limit + K)) as HE. fold q in HE. specialize (HD q HN) as HDq. rewrite (waits_drops limit q HR HDq) in HE.
    assert (HI : (K < improvements q)%nat) by lia. destruct (improvements_value q L x0) as (x & _ & HLx & _ & Hx); try assumption; [intros m Hm; apply HB; lia|unfold improvements in HI; destruct q; [cbn in HI; lia|lia]|].
    assert (HP : (1 - sc_threshold c) ^ (improvements q - 1) <= (1 - sc_threshold c) ^ K).
    { replace (improvements q - 1)%nat with (K + (improvements q - 1 - K))%nat by lia. rewrite pow_add. rewrite <- (Rmult_1_r ((1 - sc_threshold c) ^ K)) at 2. apply Rmult_le_compat_l; [apply pow_le; lra|]. apply Rle_trans with (1 ^ (improvements q - 1 - K)); [apply pow_incr; lra|rewrite pow1; lra]. }
    assert (0 < x0). { destruct (HB 0%nat ltac:(lia)) as (y & Hy & HLy). rewrite H0 in Hy. assert (x0 = y) by congruence. lra. }
    pose proof (Rmult_le_compat_l x0 _ _ ltac:(lra) HP). lra.
  Qed.
End Length.
(** A constant negative loss counts as an improvement for ever. *)
Lemma negative_improves c lr l x : sc_threshold c < 1 -> 0 < sc_threshold c -> x < 0 -> (forall n, l n = Some (Fin x)) -> forall n, improving c lr l n /\ pl_lr (pl c lr l n) = lr.
Proof.
  intros H1 H0 Hx HL.
  assert (HI : forall n, improving c lr l n).
  { intros n. unfold improving. rewrite HL. destruct (best_inv c lr l n) as [[_ ->]|(m & _ & -> & _)]; [|rewrite HL]; apply flt_clearly; try exact H1; try discriminate; cbn; [exact I|nra]. }
  intros n. split; [apply HI|]. induction n as [|n IH]; [reflexivity|]. specialize (HI n). unfold improving in HI. cbn [pl]. unfold plateau_step. rewrite HI. destruct (sc_patience c <? 0)%nat eqn:E; [apply Nat.ltb_lt in E; lia|]. exact IH.
Qed.
(** The same bound for any rates that follow the rule. *)
Lemma drops_rule factor t p lr l rate n : rates_follow factor t p lr l rate -> (drops rate n * (p + 1) <= n)%nat.
Proof.
  intros (_ & I & A & [_ HA] & HR).
  assert (HD : forall k, rate (S k) <> rate k -> A k).
  { intros k Hk. destruct (classic (A k)) as [|HN]; [assumption|exfalso]. apply Hk. apply (HR k). tauto. }
  assert (FL : forall m k, (m <= k)%nat -> (forall j, (m <= j < k)%nat -> ~ A j) -> drops rate k = drops rate m).
  { intros m k H. induction H as [|k H IH]; intros HN; [reflexivity|]. rewrite drops_S, IH by (intros; apply HN; lia). destruct (Req_EM_T (rate (S k)) (rate k)) as [E|E]; [lia|]. exfalso. apply (HN k); [lia|]. now apply HD. }
  induction n as [n IH] using lt_wf_ind. destruct n as [|n]; [cbn; lia|]. rewrite drops_S. destruct (Req_EM_T (rate (S n)) (rate n)) as [E|E].
  - rewrite Nat.add_0_r. specialize (IH n ltac:(lia)). lia.
  - apply HD, HA in E. destruct E as [HI [(m & (L1 & L2 & L3) & En)|[H1 En]]].
    + rewrite (FL (S m) n); [|lia|intros k Hk Hw; apply (L3 k); [lia|now right]]. specialize (IH (S m) ltac:(lia)). rewrite Nat.mul_add_distr_r. lia.
    + rewrite (FL 0%nat n); [|lia|intros k Hk Hw; apply (H1 k); [lia|now right]]. change (drops rate 0) with 0%nat. cbn. lia.
Qed.
(** The rule determines everything. *)
Lemma last_before_ext (E E' : nat -> Prop) n m : (forall k, (k < n)%nat -> (E k <-> E' k)) -> last_before E n m <-> last_before E' n m.
Proof.
  intros H. unfold last_before. split; intros (H1 & H2 & H3); (split; [exact H1|split; [now apply H|intros k Hk HE; apply (H3 k Hk); apply H; [lia|exact HE]]]).
Qed.
Lemma none_before_ext (E E' : nat -> Prop) n : (forall k, (k < n)%nat -> (E k <-> E' k)) -> none_before E n <-> none_before E' n.
Proof. intros H. unfold none_before. split; intros HN k Hk HE; apply (HN k Hk); now apply H. Qed.
Lemma plateau_rule_unique t p l I A I' A' : plateau_rule t p l I A -> plateau_rule t p l I' A' -> forall n, (I n <-> I' n) /\ (A n <-> A' n).
Proof.
  intros [HI HA] [HI' HA'] n. induction n as [n IH] using lt_wf_ind.
  assert (E1 : I n <-> I' n).
  { rewrite HI, HI'. assert (K : forall k, (k < n)%nat -> (I k <-> I' k)) by (intros k Hk; apply (IH k Hk)). rewrite (none_before_ext _ _ n K).
    split; (intros [(m & Hm & Hc)|H]; [left; exists m; split; [apply (last_before_ext _ _ n m K); exact Hm|exact Hc]|right; exact H]). }
  split; [exact E1|]. rewrite HA, HA', E1. assert (K : forall k, (k < n)%nat -> (I k \/ A k <-> I' k \/ A' k)) by (intros k Hk; destruct (IH k Hk) as [K1 K2]; rewrite K1, K2; reflexivity).
  rewrite (none_before_ext _ _ n K). split; (intros [H0 [(m & Hm & Hc)|H]]; (split; [exact H0|]); [left; exists m; split; [apply (last_before_ext _ _ n m K); exact Hm|exact Hc]|right; exact H]).
Qed.
Lemma rates_unique c lr l rate : 0 < lr -> 0 < sc_factor c -> sc_threshold c < 1 ->
  rates_follow (sc_factor c) (sc_threshold c) (sc_patience c) lr l rate -> forall n, rate n = pl_lr (pl c lr l n).
Proof.
  intros HL HF HT (R0 & I & A & HP & HR) n. destruct (rates_hold c lr l HL HF HT) as (_ & I' & A' & HP' & HR'). pose proof (plateau_rule_unique _ _ _ _ _ _ _ HP HP') as HU.
  induction n as [|n IH]; [exact R0|]. destruct (HR n) as [H1 H2], (HR' n) as [H1' H2']. rewrite <- IH in *. destruct (HU n) as [_ HA]. rewrite <- HA in H1', H2'.
  destruct (classic (A n /\ / 100000000 < rate n * (1 - sc_factor c))) as [H|H]; [rewrite (H1 H), (H1' H); reflexivity|rewrite (H2 H), (H2' H); reflexivity].
Qed.
Lemma drops_ext r r' n : (forall k, r k = r' k) -> drops r n = drops r' n.
Proof. intros H. induction n as [|n IH]; [reflexivity|]. rewrite !drops_S, IH, !H. reflexivity. Qed.
(** No improvement from [k] on: [limit] reductions within [limit * (patience + 1)] steps. *)
Lemma plateau_drops c lr l rate limit k : 0 < lr -> 0 < sc_factor c < 1 -> sc_threshold c < 1 ->
  rates_follow (sc_factor c) (sc_threshold c) (sc_patience c) lr l rate ->
  / 100000000 < lr * sc_factor c ^ (limit - 1) * (1 - sc_factor c) -> (1 <= k)%nat -> lower (l 0%nat) (Some PInf) ->
  (forall n j, (k <= n < k + limit * (sc_patience c + 1))%nat -> (j < n)%nat -> ~ clearly_lower (sc_threshold c) (l n) (l j)) ->
  (limit <= drops rate (k + limit * (sc_patience c + 1)))%nat.
Proof.
  intros HL HF HT HR HE Hk H0 HN. rewrite (drops_ext rate (fun n => pl_lr (pl c lr l n))) by (apply rates_unique; auto; apply HF). apply (drops_plateau c lr l HL HF); [exact HE|].
  intros n Hn Hn2 HI. assert (HI0 : improving c lr l 0). { apply flt_clearly; [lra|discriminate|]. destruct (l 0%nat) as [[x| |]|]; cbn in *; tauto. }
  destruct (best_inv c lr l n) as [[K _]|(m & (M1 & M2 & M3) & EB & HNn)]; [apply (K 0%nat); [lia|exact HI0]|].
  unfold improving in HI. rewrite EB in HI. apply flt_clearly in HI; [|lra|exact HNn]. apply (HN n m); try assumption. lia.
Qed.
