(** Lemmas: joint entropies and mutual information. *)
From Coq Require Import Permutation Sorted.
From Verif Require Import Base BaseFacts RBase RFacts M_Logit M_Mono M_Lik M_Est M_Stat S_Stat P_Stat1 P_Stat2 P_Stat3.
Local Open Scope R_scope.

(** ** Distinct pairs *)
Lemma pair_eqb_spec p q : reflect (p = q) (pair_eqb p q).
Proof.
  destruct p as [a b], q as [c d]. unfold pair_eqb. cbn [fst snd]. destruct (Nat.eqb_spec a c), (Nat.eqb_spec b d); cbn; constructor; congruence.
Qed.
Definition ltp (p q : nat * nat) : Prop := (fst p < fst q \/ fst p = fst q /\ snd p < snd q)%nat.
Lemma pair_ltb_true p q : pair_ltb p q = true <-> ltp p q.
Proof.
  unfold pair_ltb, ltp. rewrite orb_true_iff, andb_true_iff, !Nat.ltb_lt, Nat.eqb_eq. reflexivity.
Qed.
Lemma ltp_total p q : p <> q -> pair_ltb p q = false -> ltp q p.
Proof.
  intros N H. destruct (pair_ltb p q) eqn:E; [discriminate|]. assert (~ ltp p q) by (rewrite <- pair_ltb_true; congruence).
  destruct p as [a b], q as [c d]. unfold ltp in *. cbn [fst snd] in *. assert (a <> c \/ b <> d) by (destruct (Nat.eq_dec a c), (Nat.eq_dec b d); try lia; congruence). lia.
Qed.
Lemma in_insert p q l : In q (insert_pair p l) <-> q = p \/ In q l.
Proof.
  induction l as [|x l IH]; cbn [insert_pair]; [cbn; intuition congruence|]. destruct (pair_eqb_spec p x) as [->|N].
  - cbn [In]. intuition congruence.
  - destruct (pair_ltb p x); cbn [In]; [intuition congruence|]. rewrite IH. intuition congruence.
Qed.
Lemma insert_sorted p l : StronglySorted ltp l -> StronglySorted ltp (insert_pair p l).
Proof.
  induction 1 as [|x l S IH F]; cbn [insert_pair]; [repeat constructor|]. destruct (pair_eqb_spec p x) as [->|N]; [constructor; assumption|].
  destruct (pair_ltb p x) eqn:E.
  - apply pair_ltb_true in E. constructor; [constructor; assumption|]. constructor; [assumption|]. rewrite Forall_forall in *. intros y Hy. specialize (F y Hy). unfold ltp in *. lia.
  - apply ltp_total in E; [|assumption]. constructor; [assumption|]. rewrite Forall_forall in *. intros y Hy. apply in_insert in Hy. destruct Hy as [->|Hy]; [assumption|apply F; assumption].
Qed.
Lemma unique_sorted l : StronglySorted ltp (unique_pairs l).
Proof. induction l as [|x l IH]; [constructor|]. apply insert_sorted. exact IH. Qed.
Lemma sorted_nodup l : StronglySorted ltp l -> NoDup l.
Proof.
  induction 1 as [|x l S IH F]; constructor; [|assumption]. intros I. rewrite Forall_forall in F. specialize (F x I). unfold ltp in F. lia.
Qed.
Lemma unique_nodup l : NoDup (unique_pairs l).
Proof. apply sorted_nodup, unique_sorted. Qed.
Lemma in_unique l p : In p (unique_pairs l) <-> In p l.
Proof. induction l as [|x l IH]; [reflexivity|]. cbn [unique_pairs fold_right]. fold (unique_pairs l). rewrite in_insert, IH. cbn [In]. intuition congruence. Qed.
Lemma unique_permutation l : Permutation (unique_pairs l) (nodup pair_eq_dec l).
Proof. apply NoDup_Permutation; [apply unique_nodup|apply NoDup_nodup|]. intros p. rewrite in_unique, nodup_In. reflexivity. Qed.
Lemma pair_count_occ l p : pair_count l p = count_occ pair_eq_dec l p.
Proof.
  unfold pair_count. induction l as [|x l IH]; [reflexivity|]. cbn [filter count_occ]. destruct (pair_eqb_spec p x) as [->|N]; destruct (pair_eq_dec x _); try congruence; cbn [length]; congruence.
Qed.
Lemma rsum_permutation l m : Permutation l m -> rsum l = rsum m.
Proof. induction 1; unfold rsum in *; cbn in *; lra. Qed.
(** Counts over a duplicate-free cover add up to the length. *)
Lemma rsum_indicator (u : list (nat * nat)) x : NoDup u -> In x u -> rsum (map (fun p => if pair_eq_dec x p then 1 else 0) u) = 1.
Proof.
  induction 1 as [|y u N _ IH]; intros I; [destruct I|]. cbn [map]. match goal with |- rsum (?a :: ?b) = _ => change (a + rsum b = 1) end.
  destruct (pair_eq_dec x y) as [->|D].
  - rewrite (map_ext_in _ (fun _ => 0)); [rewrite rsum_map_const; ring|]. intros p Hp. destruct (pair_eq_dec y p); [congruence|reflexivity].
  - destruct I as [->|I]; [congruence|]. rewrite IH by exact I. ring.
Qed.
Lemma counts_total u obs : NoDup u -> incl obs u -> rsum (map (fun p => INR (count_occ pair_eq_dec obs p)) u) = INR (length obs).
Proof.
  intros N. induction obs as [|x obs IH]; intros I.
  - cbn [count_occ length]. rewrite rsum_map_const. cbn. ring.
  - rewrite (map_ext _ (fun p => INR (count_occ pair_eq_dec obs p) + (if pair_eq_dec x p then 1 else 0))).
    + rewrite rsum_map_plus, IH by (intros y Hy; apply I; right; assumption). rewrite rsum_indicator by (assumption || (apply I; left; reflexivity)).
      cbn [length]. rewrite S_INR. ring.
    + intros p. cbn [count_occ]. destruct (pair_eq_dec x p); [rewrite S_INR; ring|ring].
Qed.
Lemma frequency_nonneg obs p : 0 <= frequency obs p.
Proof.
  unfold frequency. destruct (Nat.eq_dec (length obs) 0) as [Z|Z].
  - apply length_zero_iff_nil in Z. subst. cbn. unfold Rdiv. lra.
  - apply Rmult_le_pos; [apply pos_INR|]. left. apply Rinv_0_lt_compat, lt_0_INR. lia.
Qed.
Lemma frequencies_total u obs : NoDup u -> incl obs u -> obs <> [] -> rsum (map (frequency obs) u) = 1.
Proof.
  intros N I Ne. assert (0 < INR (length obs)) by (apply lt_0_INR; destruct obs; [congruence|cbn; lia]).
  rewrite (map_ext _ (fun p => / INR (length obs) * INR (count_occ pair_eq_dec obs p))) by (intros; unfold frequency, Rdiv; ring).
  rewrite rsum_map_scal, counts_total by assumption. field. lra.
Qed.

(** ** pair_proportions *)
Lemma observed_joint i j data : observed_pairs i j data = joint_answers i j data.
Proof. unfold observed_pairs. induction data as [|row data IH]; [reflexivity|]. cbn [flat_map joint_answers]. rewrite IH. destruct (nth i row None), (nth j row None); reflexivity. Qed.
Lemma list_max_in l x : In x l -> (x <= list_max l)%nat.
Proof. intros H. pose proof (proj1 (list_max_le l (list_max l)) (Nat.le_refl _)) as F. rewrite Forall_forall in F. apply F. exact H. Qed.
Lemma max_category_bound data row i a : In row data -> nth i row None = Some a -> (a <= max_category data)%nat.
Proof.
  intros Hr Ha. unfold max_category. apply list_max_in. apply in_map_iff. exists (Some a). split; [reflexivity|]. apply in_concat. exists row. split; [assumption|].
  rewrite <- Ha. apply nth_In. destruct (Nat.lt_ge_cases i (length row)); [assumption|]. rewrite nth_overflow in Ha by assumption. discriminate.
Qed.
Definition grid (m : nat) : list (nat * nat) := list_prod (seq 0 m) (seq 0 m).
Lemma nodup_app {A} (a b : list A) : NoDup a -> NoDup b -> (forall x, In x a -> In x b -> False) -> NoDup (a ++ b).
Proof.
  intros Ha Hb. induction Ha as [|x a N _ IH]; intros D; [exact Hb|]. cbn [app]. constructor.
  - rewrite in_app_iff. intros [I|I]; [contradiction|]. apply (D x); [left; reflexivity|exact I].
  - apply IH. intros y Hy. apply D. right. exact Hy.
Qed.
Lemma nodup_prod (a b : list nat) : NoDup a -> NoDup b -> NoDup (list_prod a b).
Proof.
  intros Ha Hb. induction Ha as [|x a N _ IH]; [constructor|]. cbn [list_prod]. apply nodup_app; [|exact IH|].
  - apply FinFun.Injective_map_NoDup; [|exact Hb]. intros u v E. congruence.
  - intros p Hp Hq. apply in_map_iff in Hp. destruct Hp as (y & <- & _). apply in_prod_iff in Hq. tauto.
Qed.
Lemma grid_nodup m : NoDup (grid m).
Proof. apply nodup_prod; apply seq_NoDup. Qed.
Lemma grid_in m a b : In (a, b) (grid m) <-> (a < m /\ b < m)%nat.
Proof. unfold grid. rewrite in_prod_iff, !in_seq. lia. Qed.
Lemma joint_in_grid i j data : incl (joint_answers i j data) (grid (max_category data + 1)).
Proof.
  assert (H : forall d m, (forall row k a, In row d -> nth k row None = Some a -> (a <= m)%nat) -> incl (joint_answers i j d) (grid (m + 1))).
  { induction d as [|row d IH]; intros m H; [intros p []|]. cbn [joint_answers].
    assert (IH' : incl (joint_answers i j d) (grid (m + 1))) by (apply IH; intros r k a Hr; apply H; right; exact Hr).
    destruct (nth i row None) as [a|] eqn:Ea; [|exact IH']. destruct (nth j row None) as [b|] eqn:Eb; [|exact IH'].
    intros p [<-|Hp]; [|apply IH'; exact Hp]. apply grid_in. pose proof (H row i a (or_introl eq_refl) Ea). pose proof (H row j b (or_introl eq_refl) Eb). lia. }
  apply H. intros row k a Hr Ha. eapply max_category_bound; eassumption.
Qed.
Lemma rsum_zeros n : rsum (repeat 0 n) = 0.
Proof. induction n as [|n IH]; [reflexivity|]. cbn [repeat]. change (rsum (0 :: repeat 0 n)) with (0 + rsum (repeat 0 n)). rewrite IH. ring. Qed.
Lemma hent_app b p q : hent b (p ++ q) = hent b p + hent b q.
Proof. unfold hent. rewrite map_app, rsum_app. reflexivity. Qed.
Lemma hent_zeros b n : hent b (repeat 0 n) = 0.
Proof. unfold hent. rewrite (map_ext_in _ (fun _ => 0)); [rewrite rsum_map_const; ring|]. intros x Hx. apply repeat_spec in Hx. subst. ring. Qed.
Lemma pair_proportions_ok data i j : (1 < length (joint_answers i j data))%nat ->
  pair_proportions ((max_category data + 1) * (max_category data + 1)) data i j
  = Ok (map (frequency (joint_answers i j data)) (unique_pairs (joint_answers i j data))
        ++ repeat 0 ((max_category data + 1) * (max_category data + 1) - length (unique_pairs (joint_answers i j data)))).
Proof.
  intros H. unfold pair_proportions. rewrite observed_joint. rewrite (proj2 (Nat.ltb_lt _ _)) by exact H.
  rewrite (proj2 (Nat.leb_le _ _)).
  - do 2 f_equal. apply map_ext. intros p. unfold frequency. rewrite pair_count_occ. reflexivity.
  - replace ((max_category data + 1) * (max_category data + 1))%nat with (length (grid (max_category data + 1))) by (unfold grid; rewrite prod_length, seq_length; reflexivity).
    apply NoDup_incl_length; [apply unique_nodup|]. intros p Hp. apply joint_in_grid with (i := i) (j := j). apply in_unique. exact Hp.
Qed.
Definition jent (b : R) (obs : list (nat * nat)) : R := hent b (map (frequency obs) (nodup pair_eq_dec obs)).
Lemma freqs_nonneg obs u : Forall (fun x => 0 <= x) (map (frequency obs) u).
Proof. apply Forall_forall. intros x Hx. apply in_map_iff in Hx. destruct Hx as (p & <- & _). apply frequency_nonneg. Qed.
Lemma pair_entropy b data i j : (1 < length (joint_answers i j data))%nat ->
  bind (pair_proportions ((max_category data + 1) * (max_category data + 1)) data i j) (entropy b) = Ok (Some (Fin (jent b (joint_answers i j data)))).
Proof.
  intros H. rewrite pair_proportions_ok by exact H. cbn [bind]. rewrite entropy_value.
  - do 3 f_equal. rewrite hent_app, hent_zeros, Rplus_0_r. unfold jent, hent. apply rsum_permutation, Permutation_map, Permutation_map, unique_permutation.
  - apply Forall_app. split; [apply freqs_nonneg|]. apply Forall_forall. intros x Hx. apply repeat_spec in Hx. lra.
  - rewrite rsum_app, rsum_zeros, Rplus_0_r. apply frequencies_total; [apply unique_nodup| |].
    + intros p Hp. apply in_unique. exact Hp.
    + intros E. rewrite E in H. cbn in H. lia.
Qed.
Lemma pair_entropy_short b data i j : (length (joint_answers i j data) <= 1)%nat ->
  bind (pair_proportions ((max_category data + 1) * (max_category data + 1)) data i j) (entropy b) = Err RuntimeError.
Proof.
  intros H. unfold pair_proportions. rewrite observed_joint. rewrite (proj2 (Nat.ltb_ge _ _)) by exact H. cbn [bind].
  apply entropy_refuse. rewrite rsum_zeros. replace (0 - 1) with (- (1)) by ring. rewrite Rabs_Ropp, Rabs_R1. lra.
Qed.
Definition jvalue (b : R) (data : list (list (option nat))) (i j : nat) : R := jent b (joint_answers (Nat.min i j) (Nat.max i j) data).
Lemma joint_matrix_ok b cols data : (forall i j, (i <= j)%nat -> (j < cols)%nat -> (1 < length (joint_answers i j data))%nat) ->
  joint_entropy_matrix b cols data = Ok (map (fun i => map (fun j => Some (Fin (jvalue b data i j))) (seq 0 cols)) (seq 0 cols)).
Proof.
  intros H. unfold joint_entropy_matrix. apply mapM_total. intros i Hi. apply mapM_total. intros j Hj. apply in_seq in Hi. apply in_seq in Hj.
  rewrite pair_entropy; [reflexivity|]. apply H; lia.
Qed.
Lemma joint_matrix_err b cols data i j : (i <= j)%nat -> (j < cols)%nat -> (length (joint_answers i j data) <= 1)%nat ->
  joint_entropy_matrix b cols data = Err RuntimeError.
Proof.
  intros Hij Hj H. unfold joint_entropy_matrix.
  assert (C : forall k l, (exists v, bind (pair_proportions ((max_category data + 1) * (max_category data + 1)) data (Nat.min k l) (Nat.max k l)) (entropy b) = Ok v)
     \/ bind (pair_proportions ((max_category data + 1) * (max_category data + 1)) data (Nat.min k l) (Nat.max k l)) (entropy b) = Err RuntimeError).
  { intros k l. destruct (Nat.lt_ge_cases 1 (length (joint_answers (Nat.min k l) (Nat.max k l) data))).
    - left. rewrite pair_entropy by assumption. eauto.
    - right. apply pair_entropy_short. assumption. }
  apply mapM_Err.
  - intros k _. match goal with |- (exists v, ?m = Ok v) \/ _ => set (M := m) end.
    destruct M as [v|e] eqn:E; [left; eauto|right]. unfold M in E.
    f_equal. assert (G : forall l, mapM (fun j => bind (pair_proportions ((max_category data + 1) * (max_category data + 1)) data (Nat.min k j) (Nat.max k j)) (entropy b)) l = Err e -> e = RuntimeError).
    { clear E. induction l as [|x l IH]; intros E; [discriminate|]. cbn [mapM] in E. destruct (C k x) as [(v & Ev)|Ev]; rewrite Ev in E; cbn [bind] in E; [|congruence].
      destruct (mapM _ l) eqn:E2; cbn [bind] in E; [discriminate|]. apply IH. congruence. }
    exact (G _ E).
  - exists i. split; [apply in_seq; lia|]. apply mapM_Err; [intros l _; apply C|]. exists j. split; [apply in_seq; lia|].
    replace (Nat.min i j) with i by lia. replace (Nat.max i j) with j by lia. apply pair_entropy_short. exact H.
Qed.

(** ** Nonnegative mutual information (Gibbs) *)
Definition hterm (x : R) : R := if Req_EM_T x 0 then 0 else - x * ln x.
Lemma gibbs K L (P : nat -> nat -> R) :
  (forall k l, (k < K)%nat -> (l < L)%nat -> 0 <= P k l) -> sumn K (fun k => sumn L (P k)) = 1 ->
  sumn K (fun k => sumn L (fun l => hterm (P k l)))
  <= sumn K (fun k => hterm (sumn L (P k))) + sumn L (fun l => hterm (sumn K (fun k => P k l))).
Proof.
  intros HP HS. set (r := fun k => sumn L (P k)). set (c := fun l => sumn K (fun k => P k l)).
  assert (Hr : forall k, (k < K)%nat -> 0 <= r k) by (intros; apply sumn_nonneg; intros; apply HP; assumption).
  assert (Hc : forall l, (l < L)%nat -> 0 <= c l) by (intros; apply sumn_nonneg; intros; apply HP; assumption).
  assert (Sc : sumn L c = 1) by (unfold c; rewrite sumn_swap; exact HS).
  assert (T : sumn K (fun k => sumn L (fun l => hterm (P k l)))
    <= sumn K (fun k => sumn L (fun l => (P k l * - ln (r k) + P k l * - ln (c l)) + (r k * c l - P k l)))).
  { apply sumn_le. intros k Hk. apply sumn_le. intros l Hl. pose proof (HP k l Hk Hl) as HP0. unfold hterm.
    assert (R1 : P k l <= r k) by (apply (sumn_term_le L (P k) l); [intros; apply HP; assumption|assumption]).
    assert (C1 : P k l <= c l) by (apply (sumn_term_le K (fun k => P k l) k); [intros; apply HP; assumption|assumption]).
    destruct (Req_EM_T (P k l) 0) as [Z|Z].
    - rewrite Z in *. pose proof (Rmult_le_pos _ _ (Hr k Hk) (Hc l Hl)). lra.
    - assert (0 < P k l) by lra. assert (0 < r k) by lra. assert (0 < c l) by lra.
      assert (Q : 0 < r k * c l / P k l) by (apply Rdiv_lt_0_compat; [apply Rmult_lt_0_compat; assumption|assumption]).
      pose proof (ln_le_sub1 _ Q) as J. rewrite ln_quot, ln_mult in J by (assumption || (apply Rmult_lt_0_compat; assumption)).
      assert (P k l * (r k * c l / P k l) = r k * c l) by (field; lra). nra. }
  eapply Rle_trans; [exact T|]. right.
  assert (E : forall k, sumn L (fun l => (P k l * - ln (r k) + P k l * - ln (c l)) + (r k * c l - P k l)) = (hterm (r k) + sumn L (fun l => P k l * - ln (c l))) + (r k * 1 - r k)).
  { intros k. rewrite sumn_plus, sumn_minus, sumn_plus, sumn_scal_r, sumn_scal, Sc. fold (r k). unfold hterm.
    destruct (Req_EM_T (r k) 0) as [->|N]; ring. }
  rewrite (sumn_ext _ _ _ (fun k _ => E k)). rewrite sumn_plus, sumn_minus, sumn_plus, sumn_scal_r.
  rewrite sumn_swap. rewrite (sumn_ext L _ (fun l => hterm (c l))).
  - ring_simplify. unfold r, c. try ring.
  - intros l _. rewrite sumn_scal_r. fold (c l). unfold hterm. destruct (Req_EM_T (c l) 0) as [->|N]; ring.
Qed.
