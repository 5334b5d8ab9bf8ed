(** Sampled test data. *)
From Verif Require Import Base BaseFacts RBase RFacts M_Data M_Logit S_Logit P_Logit P_Logit2 P_Logit3 P_Logit4 M_Lik M_Eval S_Eval P_Eval1 M_Pop S_Pop P_Pop1 P_Pop3.
Import List.
Local Open Scope R_scope.

Lemma cell_some (c : list (option R)) M p : length c = M -> (forall k, (k < M)%nat -> nth_error c k = Some (Some (p k))) -> c = map (fun k => Some (p k)) (seq 0 M).
Proof.
  intros Hl H. apply nth_error_ext. intro k. destruct (Nat.lt_ge_cases k M) as [Hk|Hk].
  - rewrite nth_error_map_seq by auto. now apply H.
  - rewrite !(proj2 (nth_error_None _ _)); [reflexivity|rewrite map_length, seq_length; lia|lia].
Qed.
Lemma osum_seq M p : osum (map (fun k => Some (p k)) (seq 0 M)) = Some (sumn M p).
Proof. apply osum_index; [now rewrite map_length, seq_length|]. intros k Hk. now rewrite nth_error_map_seq. Qed.

Lemma simplex_valid K M p : valid_distribution K M p -> simplex (map (fun k => Some (p k)) (seq 0 M)) = true.
Proof.
  intros (H0 & H1 & _). unfold simplex. rewrite osum_seq, H1. apply andb_true_iff. split.
  - apply forallb_forall. intros c Hc. apply in_map_iff in Hc as (k & <- & Hk). apply in_seq in Hk. destruct (Rle_dec 0 (p k)) as [|N]; [reflexivity|]. exfalso. apply N, H0. lia.
  - destruct (Rlt_dec (Rabs (1 - 1)) (/ 1000000)) as [|N]; [reflexivity|]. exfalso. apply N. rewrite Rminus_diag_eq, Rabs_R0 by reflexivity. lra.
Qed.
Lemma numbers_seq M p : numbers (map (fun k => Some (p k)) (seq 0 M)) = map p (seq 0 M).
Proof. unfold numbers. rewrite map_map. reflexivity. Qed.

Lemma race_winner K M p q : (1 <= K <= M)%nat -> valid_distribution K M p -> length q = M -> Forall (Rlt 0) q ->
  exists k, race (map (fun k => Some (p k)) (seq 0 M)) q = Ok k /\ (k < K)%nat /\ 0 < p k /\
    forall j, (j < M)%nat -> p j / nth j q 0 <= p k / nth k q 0.
Proof.
  intros HK (H0 & H1 & H2 & H3) Hl HF. unfold race. rewrite numbers_seq, rsum_map_seq. cbn [Nat.add]. change (sumn M (fun k => p k)) with (sumn M p). rewrite H1.
  set (L := zip_with (fun x e => x / 1 / e) (map p (seq 0 M)) q).
  assert (HL : length L = M) by (unfold L; rewrite zip_with_length, map_length, seq_length, Hl; apply Nat.min_id).
  assert (HN : forall j, (j < M)%nat -> nth_error L j = Some (p j / nth j q 0)).
  { intros j Hj. unfold L. rewrite nth_error_zip_with, nth_error_map_seq, (nth_error_nth_lt q j 0) by lia. cbn [Nat.add]. f_equal. unfold Rdiv. rewrite Rinv_1. ring. }
  assert (HQ : forall j, (j < M)%nat -> 0 < nth j q 0).
  { intros j Hj. rewrite Forall_forall in HF. apply HF, nth_In. lia. }
  destruct (rargmax_top L) as (k & Ek & x & Hx & Hmax); [intro E; rewrite E in HL; cbn in HL; lia|].
  exists k. split; [exact Ek|].
  assert (HkM : (k < M)%nat) by (rewrite <- HL; apply nth_error_Some; congruence).
  rewrite HN in Hx by auto. assert (Ex : x = p k / nth k q 0) by congruence. subst x.
  assert (G : forall j, (j < M)%nat -> p j / nth j q 0 <= p k / nth k q 0).
  { intros j Hj. destruct (Hmax j _ (HN j Hj)) as [A _]. exact A. }
  assert (P0 : 0 < p 0%nat / nth 0 q 0) by (apply Rdiv_lt_0_compat; [apply H2; lia|apply HQ; lia]).
  assert (Pk : 0 < p k).
  { destruct (Rlt_le_dec 0 (p k)) as [|N]; [assumption|]. exfalso. specialize (G 0%nat ltac:(lia)).
    assert (p k / nth k q 0 <= 0). { unfold Rdiv. pose proof (Rinv_0_lt_compat _ (HQ k HkM)). nra. } lra. }
  split; [|auto]. destruct (Nat.lt_ge_cases k K) as [|N]; [assumption|]. rewrite H3 in Pk by lia. lra.
Qed.

Lemma mapiM_all {A B} (f : nat -> A -> result B) l : (forall j a, nth_error l j = Some a -> exists y, f j a = Ok y) ->
  exists ys, mapiM f l = Ok ys /\ length ys = length l /\ forall j a, nth_error l j = Some a -> exists y, nth_error ys j = Some y /\ f j a = Ok y.
Proof.
  unfold mapiM. assert (G : forall i, (forall j a, nth_error l j = Some a -> exists y, f (i + j)%nat a = Ok y) ->
    exists ys, mapiM_from i f l = Ok ys /\ length ys = length l /\ forall j a, nth_error l j = Some a -> exists y, nth_error ys j = Some y /\ f (i + j)%nat a = Ok y).
  { induction l as [|a l IH]; intros i H; [exists []; repeat split; intros [|j] a Ha; discriminate|].
    destruct (H 0%nat a eq_refl) as (b & Hb). rewrite Nat.add_0_r in Hb.
    destruct (IH (S i)) as (ys & E & L & G).
    { intros j c Hc. destruct (H (S j) c Hc) as (y & Hy). exists y. now rewrite Nat.add_succ_comm. }
    exists (b :: ys). cbn [mapiM_from]. rewrite Hb. cbn [bind]. rewrite E. cbn [bind]. split; [reflexivity|]. split; [cbn [length]; lia|].
    intros [|j] c Hc; [exists b; rewrite Nat.add_0_r; split; [reflexivity|]; cbn in Hc; congruence|].
    destruct (G j c Hc) as (y & H1 & H2). exists y. rewrite <- Nat.add_succ_comm. auto. }
  intro H. apply (G 0%nat). exact H.
Qed.

Lemma sample_table q cats M probs p : table cats M probs p ->
  (forall r i, length (q r i) = M /\ Forall (Rlt 0) (q r i)) ->
  exists data, sample_test_data q probs = Ok data /\ length data = length probs /\
    Forall (fun row => length row = length cats) data /\
    forall r i K, (r < length probs)%nat -> nth_error cats i = Some K ->
      exists k, at2 data r i = Some (Some (Z.of_nat k)) /\ (k < K)%nat /\ 0 < p r i k /\
        forall j, (j < M)%nat -> p r i j / nth j (q r i) 0 <= p r i k / nth k (q r i) 0.
Proof.
  intros HT HQ.
  assert (HC : forall r row i c, nth_error probs r = Some row -> nth_error row i = Some c ->
    exists K, nth_error cats i = Some K /\ (1 <= K <= M)%nat /\ c = map (fun k => Some (p r i k)) (seq 0 M) /\ valid_distribution K M (p r i)).
  { intros r row i c Hr Hc. destruct (HT r row Hr) as [L G]. assert (Hi : (i < length cats)%nat) by (rewrite <- L; apply nth_error_Some; congruence).
    destruct (nth_error cats i) as [K|] eqn:EK; [|apply nth_error_None in EK; lia]. destruct (G i K c EK Hc) as (A & B & C & D).
    exists K. split; [reflexivity|]. split; [exact A|]. split; [now apply cell_some|exact D]. }
  assert (HS : forallb (forallb simplex) probs = true).
  { apply forallb_forall. intros row Hrow. apply forallb_forall. intros c Hc. apply In_nth_error in Hrow as (r & Hr). apply In_nth_error in Hc as (i & Hi).
    destruct (HC r row i c Hr Hi) as (K & _ & _ & -> & V). now apply (simplex_valid K). }
  set (f := fun r (resp : list (list (option R))) => mapiM (fun i p => rmap (fun k => Some (Z.of_nat k)) (race p (q r i))) resp).
  assert (HR : forall r row, nth_error probs r = Some row -> exists ys, f r row = Ok ys /\ length ys = length cats /\
     forall i K, nth_error cats i = Some K -> exists k, nth_error ys i = Some (Some (Z.of_nat k)) /\ (k < K)%nat /\ 0 < p r i k /\
        forall j, (j < M)%nat -> p r i j / nth j (q r i) 0 <= p r i k / nth k (q r i) 0).
  { intros r row Hr. unfold f.
    destruct (mapiM_all (fun i p => rmap (fun k => Some (Z.of_nat k)) (race p (q r i))) row) as (ys & E & L & G).
    { intros i c Hc. destruct (HC r row i c Hr Hc) as (K & _ & HK & -> & V). destruct (HQ r i) as [Q1 Q2].
      destruct (race_winner K M (p r i) (q r i) HK V Q1 Q2) as (k & Ek & _). rewrite Ek. cbn [rmap]. eexists; reflexivity. }
    destruct (HT r row Hr) as [L' _].
    exists ys. split; [exact E|]. split; [congruence|]. intros i K EK.
    assert (Hi : (i < length row)%nat) by (rewrite L'; apply nth_error_Some; congruence).
    destruct (nth_error row i) as [c|] eqn:Ec; [|apply nth_error_None in Ec; lia].
    destruct (G i c Ec) as (y & Hy & Ey). destruct (HC r row i c Hr Ec) as (K' & EK' & HK & -> & V). assert (K' = K) by congruence. subst K'.
    destruct (HQ r i) as [Q1 Q2]. destruct (race_winner K M (p r i) (q r i) HK V Q1 Q2) as (k & Ek & A & B & C). rewrite Ek in Ey. cbn [rmap] in Ey.
    exists k. split; [congruence|]. auto. }
  destruct (mapiM_all f probs) as (data & E & L & G). { intros r row Hr. destruct (HR r row Hr) as (ys & Ey & _). eauto. }
  exists data. unfold sample_test_data. rewrite HS. split; [exact E|]. split; [exact L|]. split.
  - apply Forall_forall. intros row Hrow. apply In_nth_error in Hrow as (r & Hr).
    assert (Hrl : (r < length probs)%nat) by (rewrite <- L; apply nth_error_Some; congruence).
    destruct (nth_error probs r) as [pr|] eqn:Ep; [|apply nth_error_None in Ep; lia].
    destruct (G r pr Ep) as (y & Hy & Ey). destruct (HR r pr Ep) as (ys & Eys & Lys & _). congruence.
  - intros r i K Hrl EK. destruct (nth_error probs r) as [pr|] eqn:Ep; [|apply nth_error_None in Ep; lia].
    destruct (G r pr Ep) as (y & Hy & Ey). destruct (HR r pr Ep) as (ys & Eys & Lys & Gys). assert (y = ys) by congruence. subst y.
    destruct (Gys i K EK) as (k & Hk & A). exists k. unfold at2. rewrite Hy. auto.
Qed.

(** Every category can be drawn. *)
Lemma race_reaches K M p k : (1 <= K <= M)%nat -> valid_distribution K M p -> (k < K)%nat ->
  exists q, length q = M /\ Forall (Rlt 0) q /\ race (map (fun k => Some (p k)) (seq 0 M)) q = Ok k.
Proof.
  intros HK V Hk. pose proof V as (H0 & H1 & H2 & H3).
  set (q := map (fun j => if (j =? k)%nat then p k / 2 else 1) (seq 0 M)).
  assert (Hl : length q = M) by (unfold q; now rewrite map_length, seq_length).
  assert (HF : Forall (Rlt 0) q).
  { apply Forall_forall. intros x Hx. apply in_map_iff in Hx as (j & <- & _). destruct (j =? k)%nat; [pose proof (H2 k Hk); lra|lra]. }
  exists q. split; [exact Hl|]. split; [exact HF|]. destruct (race_winner K M p q HK V Hl HF) as (k' & Ek & A & B & C). rewrite Ek. f_equal.
  destruct (Nat.eq_dec k' k) as [|N]; [assumption|]. exfalso. specialize (C k ltac:(lia)). unfold q in C. rewrite !nth_map_seq in C by lia.
  rewrite Nat.eqb_refl in C. destruct (Nat.eqb_spec k' k); [congruence|]. pose proof (H2 k Hk) as Pk.
  replace (p k / (p k / 2)) with 2 in C by (field; lra). pose proof (prob_range K M p k' V ltac:(lia)). lra.
Qed.

(** A negative entry or a NaN is refused. *)
Lemma sample_refused q probs r i k : at3 probs r i k = Some None \/ (exists x, at3 probs r i k = Some (Some x) /\ x < 0) -> sample_test_data q probs = Err ValueError.
Proof.
  intro H. unfold sample_test_data. replace (forallb (forallb simplex) probs) with false; [reflexivity|]. symmetry. apply not_true_is_false. intro T.
  rewrite forallb_forall in T. unfold at3, at2 in H. destruct (nth_error probs r) as [row|] eqn:Er; [|destruct H as [H|(x & H & _)]; discriminate].
  specialize (T row (nth_error_In _ _ Er)). rewrite forallb_forall in T. destruct (nth_error row i) as [c|] eqn:Ei; [|destruct H as [H|(x & H & _)]; discriminate].
  specialize (T c (nth_error_In _ _ Ei)). unfold simplex in T. apply andb_true_iff in T as [T _]. rewrite forallb_forall in T.
  destruct H as [H|(x & H & Hx)]; specialize (T _ (nth_error_In _ _ H)); cbn in T; [discriminate|]. destruct (Rle_dec 0 x); [lra|discriminate].
Qed.

(** The shape of the tables of softmax models. *)
Lemma probabilities_shape n M (out : list (list ext)) : (0 < n)%nat -> (0 < M)%nat -> Forall (fun o => length o = (n * M)%nat) out ->
  length (probabilities_from_output n M out) = length out /\
  forall r row, nth_error (probabilities_from_output n M out) r = Some row -> length row = n /\
    forall i c, nth_error row i = Some c -> length c = M.
Proof.
  intros Hn HM HF. unfold probabilities_from_output.
  assert (Hc : length (concat out) = (length out * (n * M))%nat) by now apply length_concat_const.
  assert (Hb : length (blocks M (concat out)) = (length out * n)%nat).
  { rewrite blocks_length by auto. rewrite Hc. unfold ceil_div.
    replace (length out * (n * M) + M - 1)%nat with ((M - 1) + (length out * n) * M)%nat by lia.
    rewrite Nat.div_add by lia. rewrite Nat.div_small; lia. }
  assert (Hl : length (blocks n (map softmax (blocks M (concat out)))) = length out).
  { rewrite blocks_length by auto. rewrite map_length, Hb. unfold ceil_div.
    replace (length out * n + n - 1)%nat with ((n - 1) + length out * n)%nat by lia. rewrite Nat.div_add by lia. rewrite Nat.div_small; lia. }
  split; [exact Hl|]. intros r row Hr.
  assert (Hrl : (r < length out)%nat) by (rewrite <- Hl; apply nth_error_Some; congruence).
  rewrite nth_error_blocks in Hr by auto. rewrite map_length, Hb in Hr.
  destruct (Nat.ltb_spec (r * n) (length out * n)) as [_|H]; [|nia]. assert (Er : row = firstn n (skipn (r * n) (map softmax (blocks M (concat out))))) by congruence.
  split.
  - rewrite Er, firstn_length, skipn_length, map_length, Hb. nia.
  - intros i c Hi. assert (Hin : (i < n)%nat).
    { destruct (Nat.lt_ge_cases i n) as [|N]; [assumption|]. rewrite Er, nth_error_firstn_ge in Hi by auto. discriminate. }
    rewrite Er, nth_error_firstn_lt, nth_error_skipn_add, nth_error_map in Hi by auto.
    rewrite nth_error_blocks in Hi by auto. rewrite Hc in Hi.
    destruct (Nat.ltb_spec ((r * n + i) * M) (length out * (n * M))) as [_|H]; [|discriminate].
    cbn [option_map] in Hi. assert (Ec : c = softmax (firstn M (skipn ((r * n + i) * M) (concat out)))) by congruence. rewrite Ec.
    assert (LS : forall l, length (softmax l) = length l) by (intro l; unfold softmax; destruct (_ || _)%bool; now rewrite map_length).
    rewrite LS, firstn_length, skipn_length, Hc. assert ((r * n + i + 1) * M <= length out * (n * M))%nat by (assert (r * n + i + 1 <= length out * n)%nat by nia; nia). nia.
Qed.
Lemma softmax_table cats M out z : cats <> [] -> (0 < M)%nat -> Forall (fun o => length o = (length cats * M)%nat) out ->
  (forall r row i K, nth_error out r = Some row -> nth_error cats i = Some K -> (1 <= K <= M)%nat /\
     forall k, (k < M)%nat -> nth_error row (i * M + k) = Some (if (k <? K)%nat then Fin (z r i k) else NInf)) ->
  table cats M (probabilities_from_output (length cats) M out) (fun r i k => if (k <? nth i cats O)%nat then category_probability (nth i cats O) (z r i) k else 0).
Proof.
  intros Hc HM HF H r row Hr. assert (Hn : (0 < length cats)%nat) by (destruct cats; [congruence|cbn; lia]).
  destruct (probabilities_shape (length cats) M out Hn HM HF) as [L G]. destruct (G r row Hr) as [L1 L2]. split; [exact L1|].
  intros i K c EK Ec. assert (Hrl : (r < length out)%nat) by (rewrite <- L; apply nth_error_Some; congruence).
  destruct (nth_error out r) as [orow|] eqn:Eo; [|apply nth_error_None in Eo; lia].
  destruct (H r orow i K Eo EK) as [HK Hrow]. assert (EN : nth i cats O = K) by (now apply nth_error_nth). rewrite EN.
  split; [exact HK|]. split; [now apply (L2 i)|]. split; [|now apply valid_category_distribution].
  intros k Hk. pose proof (probabilities_pattern (length cats) M out r orow i K (z r i) Hn HF Eo) as P. unfold at3, at2 in P. rewrite Hr, Ec in P.
  apply P; auto. apply nth_error_Some. congruence.
Qed.
