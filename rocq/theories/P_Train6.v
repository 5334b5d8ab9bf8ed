(** Facts about whole fits. *)
From Verif Require Import Base BaseFacts RBase RFacts M_Lik M_Est M_Stat M_Train S_Train P_Train1 P_Train2 P_Train3 P_Train4 P_Train5 P_Eval7.
Local Open Scope R_scope.

Lemma in_flat {B} (batches : list B) k i e b : nth_error (flat (fun _ => batches) (seq 0 k)) i = Some (e, b) -> e = (i / length batches)%nat /\ (e < k)%nat.
Proof.
  assert (G : forall k s i, nth_error (flat (fun _ => batches) (seq s k)) i = Some (e, b) -> e = (s + i / length batches)%nat /\ (e < s + k)%nat).
  { clear k i. induction k as [|k IH]; intros s i H; [destruct i; discriminate|]. unfold flat in H. cbn [seq map concat] in H. fold (flat (fun _ : nat => batches) (seq (S s) k)) in H. destruct (lt_dec i (length batches)) as [Hi|Hi].
    - rewrite nth_error_app1 in H by (rewrite map_length; exact Hi). rewrite nth_error_map in H. destruct (nth_error batches i); [|discriminate]. cbn in H. rewrite Nat.div_small by exact Hi. assert (e = s) by congruence. lia.
    - rewrite nth_error_app2, map_length in H by (rewrite map_length; lia). destruct (Nat.eq_dec (length batches) 0) as [E|E].
      + exfalso. destruct batches; [|discriminate]. revert H. clear. generalize (S s). intros s'. replace (flat (fun _ : nat => @nil B) (seq s' k)) with (@nil (nat * B)); [destruct (i - length (@nil B))%nat; discriminate|].
        unfold flat. generalize (seq s' k). induction l; [reflexivity|exact IHl].
      + apply IH in H. destruct H as [H1 H2]. split; [|lia]. replace i with ((i - length batches) + 1 * length batches)%nat by lia. rewrite Nat.div_add by exact E. lia. }
  intros H. destruct (G k 0%nat i H) as [H1 H2]. cbn in *. auto.
Qed.
Lemma concat_range {B} (batches : list B) max_epochs : concat (map (fun _ => batches) (range max_epochs)) = concat (repeat batches (Z.to_nat max_epochs)).
Proof. unfold range. generalize 0%nat. induction (Z.to_nat max_epochs) as [|k IH]; intros s; [reflexivity|]. cbn [seq map concat repeat]. now rewrite IH. Qed.
Lemma length_concat_repeat {B} (batches : list B) k : length (concat (repeat batches k)) = (k * length batches)%nat.
Proof. induction k as [|k IH]; [reflexivity|]. cbn [repeat concat]. rewrite app_length, IH. reflexivity. Qed.

(** A fit with batches [bs]: what the loops leave. *)
Definition fitted {W B} (loss : B -> W -> fl) update c lr (limit : Z) w0 (bs : list (nat * B)) (t : tstate (W:=W)) : Prop :=
  exists N, (N <= length bs)%nat /\ core loss update c lr w0 bs N t /\ (forall n, (n < N)%nat -> (Z.of_nat (drops (rr loss update c lr w0 bs) n) < limit)%Z) /\
      ((N < length bs)%nat -> Z.of_nat (drops (rr loss update c lr w0 bs) N) = limit).
Lemma jml_fitted {W B} (loss : B -> W -> fl) update c lr limit max_epochs batches w : (1 <= limit)%Z ->
  fitted loss update c lr limit w (flat (fun _ => batches) (range max_epochs)) (jml_loop loss update c limit max_epochs batches (t_start lr w)).
Proof.
  intros HL. rewrite jml_flat by exact HL. destruct (run_loop loss update c lr w (flat (fun _ => batches) (range max_epochs)) limit (fun eb t => jml_batch loss update c limit (fst eb) (snd eb) t) HL) as (N & H1 & H2 & H3 & H4 & _).
  - intros n e b t Hn HC HP HD. cbn [fst snd]. now apply jml_batch_core.
  - exists N. auto.
Qed.
Lemma mml_fitted {W B} (loss : B -> W -> fl) update c lr limit max_epochs data w : (1 <= limit)%Z ->
  fitted loss update c lr limit w (flat (fun _ => [data]) (range max_epochs)) (mml_loop loss update c limit max_epochs data (t_start lr w)).
Proof.
  intros HL. rewrite mml_flat. destruct (run_loop loss update c lr w (flat (fun _ => [data]) (range max_epochs)) limit (fun eb t => mml_epoch loss update c limit (snd eb) (fst eb) t) HL) as (N & H1 & H2 & H3 & H4 & _).
  - intros n e b t Hn HC HP HD. cbn [fst snd]. destruct (mml_epoch_core loss update c lr w _ limit n e b t Hn HC HP) as (J1 & J2 & J3). auto.
  - exists N. auto.
Qed.
Lemma fitted_run {W B} (loss : B -> W -> fl) update c lr limit w0 batches max_epochs t : 0 < lr -> 0 < sc_factor c -> sc_threshold c < 1 ->
  fitted loss update c lr limit w0 (flat (fun _ => batches) (range max_epochs)) t ->
  exists N w rate l, run_of loss update (sc_factor c) (sc_threshold c) (sc_patience c) lr limit w0 (concat (repeat batches (Z.to_nat max_epochs))) N w rate l /\
    tr_history (t_result t) = map l (seq 0 N) /\ kept w rate l N (length batches) (tr_w (t_result t)) (tr_lr (t_result t)) (tr_best_epoch (t_result t)).
Proof.
  rewrite <- concat_range, <- snd_flat.
  intros HL HF HT (N & H1 & H2 & H3 & H4). set (bs := flat (fun _ => batches) (range max_epochs)) in *. exists N, (rw loss update c lr w0 bs), (rr loss update c lr w0 bs), (rl loss update c lr w0 bs).
  destruct (result_spec loss update c lr w0 bs N t H2) as [R1 R2]. split; [|split; [exact R1|]].
  - split; [now rewrite map_length|]. split; [reflexivity|]. split.
    + intros n b Hn. rewrite nth_error_map in Hn. destruct (nth_error bs n) as [[e b']|] eqn:E; [|discriminate]. cbn in Hn. assert (b' = b) by congruence. subst b'. destruct (rw_S loss update c lr w0 bs n e b E) as (E1 & _ & E3). auto.
    + split; [|split; [exact H3|rewrite map_length; exact H4]].
      pose proof (rates_hold c lr (rl loss update c lr w0 bs) HL HF HT) as HR. destruct HR as (HR0 & I & A & HP & HA). split; [exact HR0|]. exists I, A. split; [exact HP|]. intros n. unfold rr. rewrite !rp_pl. apply HA.
  - destruct R2 as [(i & b & F1 & F2 & F3 & F4)|(F1 & F2 & F3 & F4)]; [left; exists i|right; auto]. apply in_flat in F2. destruct F2 as [F2 _]. auto.
Qed.
(** Lengths. *)
Section Lengths.
  Context {W B : Type}.
  Variables (loss : B -> W -> fl) (update : B -> R -> W -> W) (c : schedule) (lr : R) (limit : Z) (w0 : W) (bs : list (nat * B)) (t : tstate (W:=W)).
  Hypotheses (Hlr : 0 < lr) (Hf : 0 < sc_factor c < 1) (Ht : 0 < sc_threshold c < 1) (Hl : (1 <= limit)%Z) (HF : fitted loss update c lr limit w0 bs t).
  Let h := tr_history (t_result t).
  Lemma fitted_lengths : exists N l, (N <= length bs)%nat /\ h = map l (seq 0 N) /\
    (forall n, (n < N)%nat -> (drops (fun n => pl_lr (pl c lr l n)) n < Z.to_nat limit)%nat) /\ ((N < length bs)%nat -> drops (fun n => pl_lr (pl c lr l n)) N = Z.to_nat limit).
  Proof.
    destruct HF as (N & H1 & H2 & H3 & H4). exists N, (rl loss update c lr w0 bs). destruct (result_spec loss update c lr w0 bs N t H2) as [R1 _]. split; [exact H1|]. split; [exact R1|].
    assert (E : forall n, drops (rr loss update c lr w0 bs) n = drops (fun n => pl_lr (pl c lr (rl loss update c lr w0 bs) n)) n).
    { intros n. induction n as [|n IH]; [reflexivity|]. rewrite !drops_S, IH. unfold rr. now rewrite !rp_pl. }
    split; [intros n Hn; specialize (H3 n Hn); rewrite E in H3; lia|intros Hn; specialize (H4 Hn); rewrite E in H4; lia].
  Qed.
  Lemma fitted_at_most : (length h <= length bs)%nat.
  Proof. destruct fitted_lengths as (N & l & H1 & -> & _). now rewrite map_length, seq_length. Qed.
  Lemma fitted_at_least : (length h < length bs)%nat -> (Z.to_nat limit * (sc_patience c + 1) <= length h)%nat.
  Proof.
    destruct fitted_lengths as (N & l & H1 & -> & _ & H4). rewrite map_length, seq_length. intros HN. rewrite <- (H4 HN). now apply drops_need.
  Qed.
  Lemma history_nth N l n : (n < N)%nat -> nth_error (map l (seq 0 N)) n = Some (l n : fl).
  Proof. intros H. rewrite nth_error_map, nth_error_seq by exact H. reflexivity. Qed.
  Lemma fitted_plateau k x0 : / 100000000 < lr * sc_factor c ^ (Z.to_nat limit - 1) * (1 - sc_factor c) -> (1 <= k)%nat -> nth_error h 0 = Some x0 -> lower x0 (Some PInf) ->
    (forall n m x y, (k <= n)%nat -> (m < n)%nat -> nth_error h n = Some x -> nth_error h m = Some y -> ~ clearly_lower (sc_threshold c) x y) ->
    (length h <= k + Z.to_nat limit * (sc_patience c + 1))%nat.
  Proof.
    intros HR Hk H0 Hx0 HN. destruct fitted_lengths as (N & l & H1 & EH & H3 & _). rewrite EH in *. rewrite map_length, seq_length. destruct (le_lt_dec N (k + Z.to_nat limit * (sc_patience c + 1))) as [|HG]; [assumption|exfalso].
    rewrite history_nth in H0 by lia. assert (l 0%nat = x0) by congruence. subst x0.
    pose proof (drops_plateau c lr l Hlr Hf (Z.to_nat limit) k HR) as HD. specialize (H3 _ HG). enough (forall n, (k <= n)%nat -> (n < k + Z.to_nat limit * (sc_patience c + 1))%nat -> ~ improving c lr l n) as HI by (specialize (HD HI); lia).
    intros n Hn Hn2 HI. assert (HI0 : improving c lr l 0). { apply flt_clearly; [lra|discriminate|]. destruct (l 0%nat) as [[x| |]|]; cbn in *; tauto. }
    destruct (best_inv c lr l n) as [[K _]|(m & (M1 & M2 & M3) & EB & HNn)]; [apply (K 0%nat); [lia|exact HI0]|].
    unfold improving in HI. rewrite EB in HI. apply flt_clearly in HI; [|lra|exact HNn]. apply (HN n m (l n) (l m)); try assumption; apply history_nth; lia.
  Qed.
  Lemma fitted_bounded K L x0 : / 100000000 < lr * sc_factor c ^ (Z.to_nat limit - 1) * (1 - sc_factor c) -> 0 < L -> nth_error h 0 = Some (Some (Fin x0)) ->
    (forall x, In x h -> exists r, x = Some (Fin r) /\ L <= r) -> x0 * (1 - sc_threshold c) ^ K < L -> (length h <= (Z.to_nat limit + K) * (sc_patience c + 1))%nat.
  Proof.
    intros HR HL H0 HB HK. destruct fitted_lengths as (N & l & H1 & EH & H3 & _). rewrite EH in *. rewrite map_length, seq_length. assert (HN : (0 < N)%nat) by (destruct N; [discriminate|lia]). rewrite history_nth in H0 by exact HN. 
    apply (stops_by c lr l Hlr Hf (proj2 Ht) (Z.to_nat limit) K L x0 N); try assumption; [lra|congruence|]. intros m Hm. apply HB. apply in_map, in_seq. lia.
  Qed.
  Lemma fitted_never : lr * sc_factor c ^ (Z.to_nat limit - 1) * (1 - sc_factor c) <= / 100000000 -> length h = length bs.
  Proof.
    intros HR. destruct fitted_lengths as (N & l & H1 & -> & H3 & H4). rewrite map_length, seq_length. destruct (Nat.eq_dec N (length bs)) as [|HN]; [assumption|exfalso]. specialize (H4 ltac:(lia)).
    destruct N as [|N]; [change (0%nat = Z.to_nat limit) in H4; lia|]. specialize (H3 N ltac:(lia)). set (rate := fun n => pl_lr (pl c lr l n)) in *. rewrite drops_S in H4.
    destruct (Req_EM_T (rate (S N)) (rate N)) as [E|E]; [lia|]. apply E. apply (rate_law c lr l Hlr Hf). intros [_ HX]. pose proof (rate_power c lr l Hlr Hf N) as HPw. cbv beta in HX, HPw. rewrite HPw in HX. fold rate in HX. replace (drops rate N) with (Z.to_nat limit - 1)%nat in HX by lia. lra.
  Qed.
  Lemma fitted_negative x : x < 0 -> (forall b w, loss b w = Some (Fin x)) -> length h = length bs.
  Proof.
    intros Hx HLx. destruct HF as (N & H1 & H2 & H3 & H4). destruct (result_spec loss update c lr w0 bs N t H2) as [R1 _]. unfold h. rewrite R1, map_length, seq_length.
    destruct (Nat.eq_dec N (length bs)) as [|HN]; [assumption|exfalso]. specialize (H4 ltac:(lia)).
    assert (E : drops (rr loss update c lr w0 bs) N = 0%nat); [|lia].
    assert (HR : forall n, (n <= N)%nat -> rr loss update c lr w0 bs n = lr).
    { intros n Hn. unfold rr. rewrite rp_pl. rewrite (pl_ext c lr _ (fun _ => Some (Fin x)) n).
      - apply (negative_improves c lr (fun _ => Some (Fin x)) x); try lra. reflexivity.
      - intros m Hm. unfold rl. destruct (nth_error bs m) as [[e b]|] eqn:EE; [apply HLx|apply nth_error_None in EE; lia]. }
    clear - HR. assert (G : forall n, (n <= N)%nat -> drops (rr loss update c lr w0 bs) n = 0%nat); [|apply G; lia]. induction n as [|n IH]; intros Hn; [reflexivity|]. rewrite drops_S, IH by lia. rewrite !HR by lia. destruct (Req_EM_T lr lr); [reflexivity|congruence].
  Qed.
End Lengths.

(** ** Intervals *)
Lemma fmean_mean_of xs : xs <> [] -> mean_of xs (fmean xs).
Proof.
  intros HX. split.
  - intros rs ->. rewrite fmean_fins. destruct rs; [cbn in HX; congruence|reflexivity].
  - intros HN HI. unfold fmean. assert (E : fsum xs = Some PInf); [|now rewrite E]. clear HX. induction xs as [|x xs IH]; [destruct HI|]. cbn [fsum fold_right]. fold (fsum xs).
    assert (HT : (exists r, fsum xs = Some (Fin r)) \/ fsum xs = Some PInf).
    { clear IH HI. induction xs as [|y ys IHy]; [left; eexists; reflexivity|]. cbn [fsum fold_right]. fold (fsum ys). destruct IHy as [[r ->]| ->].
      - intros z Hz. apply HN. destruct Hz as [->|Hz]; [now left|right; now right].
      - destruct (HN y) as [N1 N2]; [right; now left|]. destruct y as [[y| |]|]; cbn; try congruence; eauto.
      - destruct (HN y) as [N1 N2]; [right; now left|]. destruct y as [[y| |]|]; cbn; try congruence; eauto. }
    destruct HI as [->|HI].
    + destruct HT as [[r ->]| ->]; reflexivity.
    + rewrite IH by (try exact HI; intros; apply HN; now right). destruct (HN x) as [N1 N2]; [now left|]. destruct x as [[x| |]|]; cbn; congruence.
Qed.
Lemma interval_run {W B} (loss : B -> W -> fl) update c lr limit interval w0 bs N : 0 < lr -> 0 < sc_factor c -> sc_threshold c < 1 -> (1 <= interval)%nat ->
  (N <= length bs)%nat ->
  (forall n, (n < N)%nat -> al loss update c lr w0 interval bs n <> None /\ (Z.of_nat (drops (ar loss update c lr w0 interval bs) (evaluated interval n)) < limit)%Z) ->
  ((N < length bs)%nat -> al loss update c lr w0 interval bs N = None \/ Z.of_nat (drops (ar loss update c lr w0 interval bs) (evaluated interval N)) = limit) ->
  interval_run_of loss update (sc_factor c) (sc_threshold c) (sc_patience c) lr limit interval w0 bs N (aw loss update c lr w0 interval bs) (ar loss update c lr w0 interval bs) (al loss update c lr w0 interval bs) (mu loss update c lr w0 interval bs).
Proof.
  intros HL HF HT HI H1 H2 H3. split; [exact H1|]. split; [reflexivity|]. split; [|split; [|split; [|split; [exact H2|exact H3]]]].
  - intros n b Hn. destruct (arun_S loss update c lr w0 interval bs HI n b Hn) as (E1 & _ & E3). split; [exact E3|]. rewrite E1. f_equal. unfold ar. rewrite ap_pl; [reflexivity|exact HI|]. apply Nat.lt_le_incl, nth_error_Some. congruence.
  - intros k. unfold mu. apply fmean_mean_of. destruct interval; [lia|]. cbn [seq map]. discriminate.
  - apply (rates_hold c lr (mu loss update c lr w0 interval bs) HL HF HT).
Qed.
Lemma evaluated_reached i N k : (1 <= i)%nat -> (k < evaluated i N)%nat -> exists n, (n < N)%nat /\ evaluated i n = k.
Proof.
  intros Hi. induction N as [|N IH]; intros H; [rewrite evaluated_0 in H by exact Hi; lia|]. pose proof (evaluated_S i N Hi) as HE. destruct (due i (S N)).
  - destruct HE as (HE & _). destruct (Nat.eq_dec k (evaluated i N)) as [->|Hne]; [exists N; split; [lia|reflexivity]|]. destruct IH as (n & Hn & En); [lia|]. exists n. split; [lia|exact En].
  - rewrite HE in H. destruct (IH H) as (n & Hn & En). exists n. split; [lia|exact En].
Qed.
