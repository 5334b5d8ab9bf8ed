(** Lemmas: mutual information of model probabilities and of data. *)
From Coq Require Import Permutation.
From Verif Require Import Base BaseFacts RBase RFacts M_Logit M_Mono M_Lik M_Est M_Stat S_Stat P_Lik3 P_Stat1 P_Stat2 P_Stat3 P_Stat4.
Local Open Scope R_scope.

Lemma shannon_hterm b p : shannon b p = rsum (map hterm p) / ln b.
Proof.
  unfold shannon, Rdiv. rewrite Rmult_comm, <- rsum_map_scal. f_equal. apply map_ext. intros x. unfold hterm. destruct (Req_EM_T x 0); unfold Rdiv; ring.
Qed.
Lemma rsum_flat_map {A B} (f : B -> R) (g : A -> list B) l : rsum (map f (flat_map g l)) = rsum (map (fun x => rsum (map f (g x))) l).
Proof.
  induction l as [|x l IH]; [reflexivity|]. cbn [flat_map map]. rewrite map_app, rsum_app, IH. reflexivity.
Qed.
Lemma rsum_seq f n : rsum (map f (seq 0 n)) = sumn n f.
Proof. rewrite rsum_map_seq. apply sumn_ext. intros. reflexivity. Qed.
Lemma rsum_grid f m : rsum (map f (grid m)) = sumn m (fun k => sumn m (fun l => f (k, l))).
Proof.
  unfold grid. rewrite <- rsum_seq.
  assert (H : forall a, rsum (map f (list_prod a (seq 0 m))) = rsum (map (fun k => sumn m (fun l => f (k, l))) a)).
  { induction a as [|x a IH]; [reflexivity|]. cbn [list_prod map]. rewrite map_app, rsum_app, IH, map_map, rsum_seq. reflexivity. }
  apply H.
Qed.

Lemma zip_with_same {A B C D} (g : B -> C -> D) (f : A -> B) (h : A -> C) l : zip_with g (map f l) (map h l) = map (fun x => g (f x) (h x)) l.
Proof. induction l as [|x l IH]; [reflexivity|]. cbn [map zip_with]. rewrite IH. reflexivity. Qed.
Definition square (n : nat) (f : nat -> nat -> R) : list (list fl) := map (fun i => map (fun j => Some (Fin (f i j))) (seq 0 n)) (seq 0 n).
Lemma square_entry n f i j : (i < n)%nat -> (j < n)%nat -> entry (square n f) i j (f i j).
Proof.
  intros Hi Hj. unfold entry, square. rewrite (nth_error_nth _ i [] (x := map (fun j => Some (Fin (f i j))) (seq 0 n))).
  - rewrite nth_error_map, nth_error_seq by exact Hj. reflexivity.
  - rewrite nth_error_map, nth_error_seq by exact Hi. reflexivity.
Qed.
Lemma mutual_matrix_square n f h : mutual_matrix (map (fun i => Some (Fin (f i))) (seq 0 n)) (square n h) = square n (fun i j => f i + f j - h i j).
Proof. unfold mutual_matrix, square. rewrite zip_with_same. apply map_ext. intros i. rewrite zip_with_same. apply map_ext. intros j. reflexivity. Qed.

(** ** From the model *)
Section Expected.
  Variables (m items : nat) (probs : list (list (list R))).
  Hypothesis Hne : probs <> [].
  Hypothesis HD : forall r i, In r probs -> (i < items)%nat -> is_distribution (nth i r []) m.
  Let n := INR (length probs).
  Lemma n_pos : 0 < n.
  Proof. unfold n. apply lt_0_INR. destruct probs; [congruence|cbn; lia]. Qed.
  Definition mp (i k : nat) : R := rmean (map (fun r => nth k (nth i r []) 0) probs).
  Definition pp (i j k l : nat) : R := rmean (map (fun r => nth k (nth i r []) 0 * nth l (nth j r []) 0) probs).
  Lemma rmean_sumn (f : nat -> list (list R) -> R) K : sumn K (fun k => rmean (map (f k) probs)) = rmean (map (fun r => sumn K (fun k => f k r)) probs).
  Proof.
    unfold rmean. rewrite map_length.
    rewrite (sumn_ext _ _ (fun k => / INR (length probs) * rsum (map (f k) probs))) by (intros; rewrite map_length; unfold Rdiv; ring).
    rewrite sumn_scal. unfold Rdiv. rewrite Rmult_comm. f_equal. clear. induction probs as [|r l IH]; [apply sumn_0|].
    cbn [map]. rewrite (sumn_ext _ _ (fun k => f k r + rsum (map (f k) l))) by reflexivity. rewrite sumn_plus, IH. reflexivity.
  Qed.
  Lemma rmean_ext (f g : list (list R) -> R) : (forall r, In r probs -> f r = g r) -> rmean (map f probs) = rmean (map g probs).
  Proof. intros H. rewrite (map_ext_in f g) by exact H. reflexivity. Qed.
  Lemma rmean_one : rmean (map (fun _ : list (list R) => 1) probs) = 1.
  Proof. pose proof n_pos. unfold rmean. rewrite rsum_map_const, map_length. fold n. field. lra. Qed.
  Lemma rmean_nonneg (f : list (list R) -> R) : (forall r, In r probs -> 0 <= f r) -> 0 <= rmean (map f probs).
  Proof.
    intros H. unfold rmean. rewrite map_length. fold n. apply Rmult_le_pos; [|left; apply Rinv_0_lt_compat, n_pos].
    replace 0 with (rsum (map (fun _ : list (list R) => 0) probs)) by (rewrite rsum_map_const; ring). apply rsum_le_map. exact H.
  Qed.
  Lemma nth_beyond i k r : In r probs -> (i < items)%nat -> (k < m)%nat -> 0 <= nth k (nth i r []) 0.
  Proof. intros Hr Hi Hk. apply (proj1 (HD r i Hr Hi)). exact Hk. Qed.
  Lemma mp_total i : (i < items)%nat -> sumn m (mp i) = 1.
  Proof. intros Hi. unfold mp. rewrite (rmean_sumn (fun k r => nth k (nth i r []) 0)). rewrite (rmean_ext _ (fun _ => 1)); [apply rmean_one|]. intros r Hr. apply (HD r i Hr Hi). Qed.
  Lemma pp_row i j k : (j < items)%nat -> sumn m (pp i j k) = mp i k.
  Proof.
    intros Hj. unfold pp. rewrite (rmean_sumn (fun l r => nth k (nth i r []) 0 * nth l (nth j r []) 0)). apply rmean_ext. intros r Hr. rewrite sumn_scal.
    rewrite (proj2 (HD r j Hr Hj)). ring.
  Qed.
  Lemma pp_col i j l : (i < items)%nat -> sumn m (fun k => pp i j k l) = mp j l.
  Proof.
    intros Hi. unfold pp. rewrite (rmean_sumn (fun k r => nth k (nth i r []) 0 * nth l (nth j r []) 0)). apply rmean_ext. intros r Hr. rewrite sumn_scal_r.
    rewrite (proj2 (HD r i Hr Hi)). ring.
  Qed.
  Lemma pp_nonneg i j k l : (i < items)%nat -> (j < items)%nat -> (k < m)%nat -> (l < m)%nat -> 0 <= pp i j k l.
  Proof. intros. apply rmean_nonneg. intros r Hr. apply Rmult_le_pos; apply nth_beyond; assumption. Qed.
  Lemma pp_sym i j k l : pp i j k l = pp j i l k.
  Proof. unfold pp. apply rmean_ext. intros. ring. Qed.
  Lemma mean_probabilities_mp i : mean_probabilities m probs i = map (mp i) (seq 0 m).
  Proof. reflexivity. Qed.
  Lemma expected_pairs_map i j : expected_pairs m probs i j = map (fun '(k, l) => pp i j k l) (grid m).
  Proof.
    unfold expected_pairs, grid. generalize (seq 0 m) at 2 3 as a. induction a as [|x a IH]; [reflexivity|]. cbn [flat_map list_prod]. rewrite map_app, IH, map_map. reflexivity.
  Qed.
  Definition mi (b : R) (i j : nat) : R :=
    hent b (mean_probabilities m probs i) + hent b (mean_probabilities m probs j) - hent b (expected_pairs m probs i j).
  Lemma mean_entropy b i : (i < items)%nat -> entropy b (mean_probabilities m probs i) = Ok (Some (Fin (hent b (mean_probabilities m probs i)))).
  Proof.
    intros Hi. apply entropy_value.
    - apply Forall_forall. intros x Hx. apply in_map_iff in Hx. destruct Hx as (k & <- & Hk). apply in_seq in Hk. apply rmean_nonneg. intros r Hr. apply nth_beyond; (assumption || lia).
    - rewrite mean_probabilities_mp, rsum_seq. apply mp_total. exact Hi.
  Qed.
  Lemma pairs_entropy b i j : (i < items)%nat -> (j < items)%nat -> entropy b (expected_pairs m probs i j) = Ok (Some (Fin (hent b (expected_pairs m probs i j)))).
  Proof.
    intros Hi Hj. apply entropy_value.
    - rewrite expected_pairs_map. apply Forall_forall. intros x Hx. apply in_map_iff in Hx. destruct Hx as ((k, l) & <- & Hk). apply grid_in in Hk. apply pp_nonneg; tauto.
    - rewrite expected_pairs_map, rsum_grid. rewrite (sumn_ext _ _ (mp i)) by (intros; apply pp_row; assumption). apply mp_total. exact Hi.
  Qed.
  Lemma expected_mi_ok b : expected_mutual_information b items m probs = Ok (square items (mi b)).
  Proof.
    unfold expected_mutual_information.
    rewrite (mapM_total _ (fun i => Some (Fin (hent b (mean_probabilities m probs i))))) by (intros i Hi; apply in_seq in Hi; apply mean_entropy; lia). cbn [bind].
    rewrite (mapM_total _ (fun i => map (fun j => Some (Fin (hent b (expected_pairs m probs i j)))) (seq 0 items))).
    2:{ intros i Hi. apply mapM_total. intros j Hj. apply in_seq in Hi. apply in_seq in Hj. apply pairs_entropy; lia. }
    cbn [bind]. f_equal. apply mutual_matrix_square.
  Qed.
  Lemma mi_sym b i j : mi b i j = mi b j i.
  Proof.
    unfold mi. assert (E : hent b (expected_pairs m probs i j) = hent b (expected_pairs m probs j i)).
    { unfold hent. rewrite !expected_pairs_map, !map_map, !rsum_grid. rewrite sumn_swap. apply sumn_ext. intros k _. apply sumn_ext. intros l _. rewrite (pp_sym i j). reflexivity. }
    rewrite E. ring.
  Qed.
  Lemma mi_lower b i j : 1 < b -> (i < items)%nat -> (j < items)%nat -> - (2 * INR m * (entropy_eps / ln b)) <= mi b i j.
  Proof.
    intros Hb Hi Hj. pose proof (ln_base_pos b Hb) as L. unfold mi.
    assert (NN : forall i, (i < items)%nat -> Forall (fun x => 0 <= x) (mean_probabilities m probs i)).
    { intros q Hq. apply Forall_forall. intros x Hx. apply in_map_iff in Hx. destruct Hx as (k & <- & Hk). apply in_seq in Hk. apply rmean_nonneg. intros r Hr. apply nth_beyond; (assumption || lia). }
    pose proof (shannon_le_hent b _ Hb (NN i Hi)) as A. pose proof (shannon_le_hent b _ Hb (NN j Hj)) as B.
    assert (C : hent b (expected_pairs m probs i j) <= shannon b (expected_pairs m probs i j)).
    { apply hent_le_shannon; [exact Hb|]. rewrite expected_pairs_map. apply Forall_forall. intros x Hx. apply in_map_iff in Hx. destruct Hx as ((k, l) & <- & Hk). apply grid_in in Hk. apply pp_nonneg; tauto. }
    assert (LM : forall i, length (mean_probabilities m probs i) = m) by (intros; unfold mean_probabilities; rewrite map_length, seq_length; reflexivity).
    rewrite LM in A, B.
    assert (G : shannon b (expected_pairs m probs i j) <= shannon b (mean_probabilities m probs i) + shannon b (mean_probabilities m probs j)).
    { rewrite !shannon_hterm. unfold Rdiv. rewrite <- Rmult_plus_distr_r. apply Rmult_le_compat_r; [left; apply Rinv_0_lt_compat; exact L|].
      rewrite expected_pairs_map, map_map, rsum_grid, !mean_probabilities_mp, !map_map, !rsum_seq.
      pose proof (gibbs m m (pp i j)) as G. rewrite (sumn_ext m (fun k => sumn m (pp i j k)) (mp i)) in G by (intros; apply pp_row; assumption).
      rewrite (sumn_ext m (fun k => hterm (sumn m (pp i j k))) (fun k => hterm (mp i k))) in G by (intros; rewrite pp_row by assumption; reflexivity).
      rewrite (sumn_ext m (fun l => hterm (sumn m (fun k => pp i j k l))) (fun k => hterm (mp j k))) in G by (intros; rewrite pp_col by assumption; reflexivity).
      apply G; [intros; apply pp_nonneg; assumption|apply mp_total; assumption]. }
    lra.
  Qed.
  Lemma mi_near b i j : 1 < b -> (i < items)%nat -> (j < items)%nat ->
    - (2 * INR m * (entropy_eps / ln b)) <= mi b i j - (shannon b (average_law m probs i) + shannon b (average_law m probs j) - shannon b (average_pair_law m probs i j)) <= INR (m * m) * (entropy_eps / ln b).
  Proof.
    intros Hb Hi Hj. unfold mi.
    assert (NN : forall i, (i < items)%nat -> Forall (fun x => 0 <= x) (mean_probabilities m probs i)).
    { intros q Hq. apply Forall_forall. intros x Hx. apply in_map_iff in Hx. destruct Hx as (k & <- & Hk). apply in_seq in Hk. apply rmean_nonneg. intros r Hr. apply nth_beyond; (assumption || lia). }
    assert (NJ : Forall (fun x => 0 <= x) (expected_pairs m probs i j)).
    { rewrite expected_pairs_map. apply Forall_forall. intros x Hx. apply in_map_iff in Hx. destruct Hx as ((k, l) & <- & Hk). apply grid_in in Hk. apply pp_nonneg; tauto. }
    pose proof (shannon_le_hent b _ Hb (NN i Hi)) as A1. pose proof (shannon_le_hent b _ Hb (NN j Hj)) as B1. pose proof (shannon_le_hent b _ Hb NJ) as C1.
    pose proof (hent_le_shannon b _ Hb (NN i Hi)) as A2. pose proof (hent_le_shannon b _ Hb (NN j Hj)) as B2. pose proof (hent_le_shannon b _ Hb NJ) as C2.
    assert (LM : forall i, length (mean_probabilities m probs i) = m) by (intros; unfold mean_probabilities; rewrite map_length, seq_length; reflexivity).
    rewrite LM in A1, B1.
    assert (LJ : length (expected_pairs m probs i j) = (m * m)%nat) by (rewrite expected_pairs_map, map_length; unfold grid; rewrite prod_length, seq_length; reflexivity).
    rewrite LJ in C1. change (average_law m probs i) with (mean_probabilities m probs i). change (average_law m probs j) with (mean_probabilities m probs j).
    assert (EJ : average_pair_law m probs i j = expected_pairs m probs i j) by (rewrite expected_pairs_map; reflexivity). rewrite EJ. lra.
  Qed.
End Expected.

(** ** From data *)
Lemma sum_over_support (f : nat * nat -> R) u g : NoDup u -> NoDup g -> incl u g -> (forall p, In p g -> ~ In p u -> f p = 0) -> rsum (map f u) = rsum (map f g).
Proof.
  intros Nu Ng I Z. set (rest := filter (fun p => if in_dec pair_eq_dec p u then false else true) g).
  assert (P : Permutation g (u ++ rest)).
  { apply NoDup_Permutation; [exact Ng| |].
    - apply nodup_app; [exact Nu|apply NoDup_filter; exact Ng|]. intros x Hx Hr. apply filter_In in Hr. destruct Hr as [_ Hr]. destruct (in_dec pair_eq_dec x u); [discriminate|contradiction].
    - intros x. rewrite in_app_iff. unfold rest. rewrite filter_In. destruct (in_dec pair_eq_dec x u) as [Y|Y]; [intuition|]. intuition. }
  rewrite (rsum_permutation (map f g) (map f (u ++ rest))) by (apply Permutation_map; exact P). rewrite map_app, rsum_app.
  rewrite (map_ext_in f (fun _ => 0) rest); [rewrite rsum_map_const; ring|].
  intros p Hp. unfold rest in Hp. apply filter_In in Hp. destruct Hp as [Hg Hp]. destruct (in_dec pair_eq_dec p u); [discriminate|]. apply Z; assumption.
Qed.
Lemma hterm_0 : hterm 0 = 0.
Proof. unfold hterm. destruct (Req_EM_T 0 0); [reflexivity|lra]. Qed.
Lemma frequency_absent obs p : ~ In p obs -> frequency obs p = 0.
Proof. intros H. unfold frequency. rewrite (proj1 (count_occ_not_In pair_eq_dec obs p)) by exact H. unfold Rdiv. cbn. ring. Qed.
Lemma joint_entropy_grid b obs m : incl obs (grid m) -> joint_entropy b obs = sumn m (fun k => sumn m (fun l => hterm (frequency obs (k, l)))) / ln b.
Proof.
  intros I. unfold joint_entropy. rewrite shannon_hterm, map_map. f_equal. rewrite <- (rsum_grid (fun p => hterm (frequency obs p))). apply sum_over_support.
  - apply NoDup_nodup.
  - apply grid_nodup.
  - intros p Hp. apply I. apply (nodup_In pair_eq_dec). exact Hp.
  - intros p _ Hp. rewrite frequency_absent, hterm_0; [reflexivity|]. intros Hi. apply Hp. apply nodup_In. exact Hi.
Qed.
Definition dup1 (p : nat * nat) : nat * nat := (fst p, fst p).
Definition dup2 (p : nat * nat) : nat * nat := (snd p, snd p).
Lemma count_dup1 obs k l m : incl obs (grid m) -> (k < m)%nat ->
  INR (count_occ pair_eq_dec (map dup1 obs) (k, l)) = if Nat.eq_dec k l then sumn m (fun l => INR (count_occ pair_eq_dec obs (k, l))) else 0.
Proof.
  intros I Hk. induction obs as [|[a b] obs IH].
  - cbn [map count_occ INR]. destruct (Nat.eq_dec k l); [rewrite sumn_0|]; reflexivity.
  - assert (Hb : (a < m /\ b < m)%nat) by (apply grid_in; apply I; left; reflexivity).
    assert (IH' := IH (fun p Hp => I p (or_intror Hp))). cbn [map]. unfold dup1 at 1. cbn [fst].
    destruct (Nat.eq_dec k l) as [<-|N].
    + rewrite (sumn_ext _ _ (fun l => INR (count_occ pair_eq_dec obs (k, l)) + (if pair_eq_dec (a, b) (k, l) then 1 else 0))).
      2:{ intros l _. cbn [count_occ]. destruct (pair_eq_dec (a, b) (k, l)); [rewrite S_INR; ring|ring]. }
      rewrite sumn_plus, <- IH'. cbn [count_occ]. destruct (pair_eq_dec (a, a) (k, k)) as [E|E].
      * injection E as ->. rewrite S_INR. rewrite (sumn_single m b); [destruct (pair_eq_dec (k, b) (k, b)); [ring|congruence]|tauto|].
        intros j Hj Nj. destruct (pair_eq_dec (k, b) (k, j)); [congruence|reflexivity].
      * rewrite sumn_zero; [ring|]. intros j _. destruct (pair_eq_dec (a, b) (k, j)); [congruence|reflexivity].
    + cbn [count_occ]. destruct (pair_eq_dec (a, a) (k, l)); [congruence|]. exact IH'.
Qed.
Definition swap (p : nat * nat) : nat * nat := (snd p, fst p).
Lemma count_swap obs k l : count_occ pair_eq_dec (map swap obs) (l, k) = count_occ pair_eq_dec obs (k, l).
Proof.
  induction obs as [|[a b] obs IH]; [reflexivity|]. cbn [map]. unfold swap at 1. cbn [fst snd count_occ].
  destruct (pair_eq_dec (b, a) (l, k)), (pair_eq_dec (a, b) (k, l)); congruence.
Qed.
Lemma frequency_swap obs k l : frequency (map swap obs) (l, k) = frequency obs (k, l).
Proof. unfold frequency. rewrite count_swap, map_length. reflexivity. Qed.
Lemma dup2_swap obs : map dup2 obs = map dup1 (map swap obs).
Proof. rewrite map_map. reflexivity. Qed.
Lemma swap_grid obs m : incl obs (grid m) -> incl (map swap obs) (grid m).
Proof. intros I p Hp. apply in_map_iff in Hp. destruct Hp as ((a, b) & <- & Hq). apply grid_in. specialize (I _ Hq). apply grid_in in I. cbn. tauto. Qed.
Lemma dup1_grid obs m : incl obs (grid m) -> incl (map dup1 obs) (grid m).
Proof. intros I p Hp. apply in_map_iff in Hp. destruct Hp as ((a, b) & <- & Hq). apply grid_in. specialize (I _ Hq). apply grid_in in I. cbn. tauto. Qed.
Lemma marginal_entropy b obs m : incl obs (grid m) -> joint_entropy b (map dup1 obs) = sumn m (fun k => hterm (sumn m (fun l => frequency obs (k, l)))) / ln b.
Proof.
  intros I. rewrite (joint_entropy_grid b _ m) by (apply dup1_grid; exact I). f_equal. apply sumn_ext. intros k Hk.
  assert (F : forall l, frequency (map dup1 obs) (k, l) = if Nat.eq_dec k l then sumn m (fun l => frequency obs (k, l)) else 0).
  { intros l. unfold frequency. rewrite (count_dup1 obs k l m I Hk), map_length. destruct (Nat.eq_dec k l); [|unfold Rdiv; ring].
    rewrite sumn_div. reflexivity. }
  rewrite (sumn_single m k); [|exact Hk|].
  - rewrite F. destruct (Nat.eq_dec k k); [reflexivity|congruence].
  - intros l _ N. rewrite F. destruct (Nat.eq_dec k l); [congruence|apply hterm_0].
Qed.
Lemma joint_le_marginals b obs m : 1 < b -> obs <> [] -> incl obs (grid m) ->
  joint_entropy b obs <= joint_entropy b (map dup1 obs) + joint_entropy b (map dup2 obs).
Proof.
  intros Hb Ne I. pose proof (ln_base_pos b Hb) as L. rewrite dup2_swap, (marginal_entropy b obs m I), (marginal_entropy b (map swap obs) m) by (apply swap_grid; exact I).
  rewrite (joint_entropy_grid b obs m I). unfold Rdiv. rewrite <- Rmult_plus_distr_r. apply Rmult_le_compat_r; [left; apply Rinv_0_lt_compat; exact L|].
  pose proof (gibbs m m (fun k l => frequency obs (k, l))) as G.
  rewrite (sumn_ext m (fun k => hterm (sumn m (fun l => frequency (map swap obs) (k, l)))) (fun l => hterm (sumn m (fun k => frequency obs (k, l))))).
  - apply G; [intros; apply frequency_nonneg|]. rewrite <- (rsum_grid (frequency obs)). apply frequencies_total; [apply grid_nodup|exact I|exact Ne].
  - intros l _. f_equal. apply sumn_ext. intros k _. apply frequency_swap.
Qed.
(** A joint entropy is at least each marginal entropy. *)
Lemma hterm_sum_le n (f : nat -> R) : (forall k, (k < n)%nat -> 0 <= f k) -> sumn n f <= 1 -> hterm (sumn n f) <= sumn n (fun k => hterm (f k)).
Proof.
  intros H S. unfold hterm at 1. destruct (Req_EM_T (sumn n f) 0) as [Z|Z].
  - apply sumn_nonneg. intros k Hk. unfold hterm. destruct (Req_EM_T (f k) 0) as [E|E]; [lra|].
    exfalso. apply E. pose proof (sumn_term_le n f k H Hk). pose proof (H k Hk). lra.
  - replace (- sumn n f * ln (sumn n f)) with (sumn n (fun k => f k * - ln (sumn n f))) by (rewrite sumn_scal_r; ring). apply sumn_le. intros k Hk.
    unfold hterm. pose proof (H k Hk). destruct (Req_EM_T (f k) 0) as [->|E]; [lra|].
    pose proof (sumn_term_le n f k H Hk). assert (ln (f k) <= ln (sumn n f)) by (destruct (Req_EM_T (f k) (sumn n f)) as [->|]; [lra|left; apply ln_increasing; lra]). nra.
Qed.
Lemma marginal_le_joint b obs m : 1 < b -> obs <> [] -> incl obs (grid m) -> joint_entropy b (map dup1 obs) <= joint_entropy b obs.
Proof.
  intros Hb Ne I. pose proof (ln_base_pos b Hb) as L. rewrite (marginal_entropy b obs m I), (joint_entropy_grid b obs m I).
  unfold Rdiv. apply Rmult_le_compat_r; [left; apply Rinv_0_lt_compat; exact L|]. apply sumn_le. intros k Hk. apply hterm_sum_le; [intros; apply frequency_nonneg|].
  assert (T : sumn m (fun k => sumn m (fun l => frequency obs (k, l))) = 1) by (rewrite <- (rsum_grid (frequency obs)); apply frequencies_total; [apply grid_nodup|exact I|exact Ne]).
  rewrite <- T. apply (sumn_term_le m (fun k => sumn m (fun l => frequency obs (k, l))) k); [|exact Hk]. intros. apply sumn_nonneg. intros. apply frequency_nonneg.
Qed.

Lemma joint_dup i j data : answered i data -> answered j data -> joint_answers i i data = map dup1 (joint_answers i j data) /\ joint_answers j j data = map dup2 (joint_answers i j data).
Proof.
  induction data as [|row data IH]; intros Hi Hj; [split; reflexivity|]. destruct IH as [A B]; [intros r Hr; apply Hi; right; exact Hr|intros r Hr; apply Hj; right; exact Hr|].
  cbn [joint_answers]. pose proof (Hi row (or_introl eq_refl)). pose proof (Hj row (or_introl eq_refl)).
  destruct (nth i row None), (nth j row None); try congruence. cbn [map]. rewrite A, B. split; reflexivity.
Qed.
Lemma joint_length i j data : answered i data -> answered j data -> length (joint_answers i j data) = length data.
Proof.
  induction data as [|row data IH]; intros Hi Hj; [reflexivity|]. cbn [joint_answers]. pose proof (Hi row (or_introl eq_refl)). pose proof (Hj row (or_introl eq_refl)).
  destruct (nth i row None), (nth j row None); try congruence. cbn [length]. rewrite IH; [reflexivity|intros r Hr; apply Hi; right; exact Hr|intros r Hr; apply Hj; right; exact Hr].
Qed.
Lemma jent_shannon b obs m : 1 < b -> incl obs (grid m) -> jent b obs <= joint_entropy b obs <= jent b obs + INR (length (nodup pair_eq_dec obs)) * (entropy_eps / ln b).
Proof.
  intros Hb I. unfold jent, joint_entropy. split; [apply hent_le_shannon; [exact Hb|apply freqs_nonneg]|].
  pose proof (shannon_le_hent b (map (frequency obs) (nodup pair_eq_dec obs)) Hb (freqs_nonneg _ _)) as H. rewrite map_length in H. exact H.
Qed.
Lemma distinct_dup1 obs m : incl obs (grid m) -> (length (nodup pair_eq_dec (map dup1 obs)) <= m)%nat.
Proof.
  intros I. rewrite <- (seq_length m 0). rewrite <- (map_length (fun k => (k, k)) (seq 0 m)). apply NoDup_incl_length; [apply NoDup_nodup|].
  intros p Hp. apply nodup_In in Hp. apply in_map_iff in Hp. destruct Hp as ((a, b) & <- & Hq). specialize (I _ Hq). apply grid_in in I. apply in_map_iff. exists a. split; [reflexivity|apply in_seq; lia].
Qed.
Definition data_mi (b : R) (data : list (list (option nat))) (i j : nat) : R :=
  jent b (joint_answers i i data) + jent b (joint_answers j j data) - jvalue b data i j.
Lemma data_mi_ok b cols data : (forall i j, (i <= j)%nat -> (j < cols)%nat -> (1 < length (joint_answers i j data))%nat) ->
  data_mutual_information b cols data = Ok (square cols (data_mi b data)).
Proof.
  intros H. unfold data_mutual_information. rewrite joint_matrix_ok by exact H. cbn [bind]. f_equal. fold (square cols (jvalue b data)).
  replace (diagonal (square cols (jvalue b data))) with (map (fun i => Some (Fin (jent b (joint_answers i i data)))) (seq 0 cols)).
  - rewrite mutual_matrix_square. reflexivity.
  - unfold diagonal. replace (length (square cols (jvalue b data))) with cols by (unfold square; rewrite map_length, seq_length; reflexivity).
    apply map_ext_in. intros i Hi. apply in_seq in Hi. pose proof (square_entry cols (jvalue b data) i i) as E. unfold entry in E.
    rewrite (nth_error_nth _ _ None (E ltac:(lia) ltac:(lia))). unfold jvalue. rewrite Nat.min_id, Nat.max_id. reflexivity.
Qed.
Lemma data_mi_sym b data i j : data_mi b data i j = data_mi b data j i.
Proof. unfold data_mi, jvalue. rewrite (Nat.min_comm j i), (Nat.max_comm j i). ring. Qed.
Lemma data_mi_lower b data i j : 1 < b -> (1 <= length data)%nat -> answered i data -> answered j data ->
  - (2 * INR (max_category data + 1) * (entropy_eps / ln b)) <= data_mi b data i j.
Proof.
  intros Hb Hn.
  assert (W : forall i j, (i <= j)%nat -> answered i data -> answered j data -> - (2 * INR (max_category data + 1) * (entropy_eps / ln b)) <= data_mi b data i j).
  { clear i j. intros i j Hij Hi Hj. pose proof (ln_base_pos b Hb) as L. set (m := (max_category data + 1)%nat). set (obs := joint_answers i j data).
    assert (I : incl obs (grid m)) by apply joint_in_grid. assert (Ne : obs <> []). { intros E. pose proof (joint_length i j data Hi Hj) as J. fold obs in J. rewrite E in J. cbn in J. lia. }
    destruct (joint_dup i j data Hi Hj) as [A B]. fold obs in A, B. unfold data_mi, jvalue. replace (Nat.min i j) with i by lia. replace (Nat.max i j) with j by lia. fold obs. rewrite A, B.
    pose proof (joint_le_marginals b obs m Hb Ne I) as G. pose proof (jent_shannon b obs m Hb I) as [X _].
    pose proof (jent_shannon b (map dup1 obs) m Hb (dup1_grid _ _ I)) as [_ Y].
    rewrite dup2_swap in *. pose proof (jent_shannon b (map dup1 (map swap obs)) m Hb (dup1_grid _ _ (swap_grid _ _ I))) as [_ Z].
    pose proof (le_INR _ _ (distinct_dup1 obs m I)) as D1. pose proof (le_INR _ _ (distinct_dup1 (map swap obs) m (swap_grid _ _ I))) as D2.
    assert (0 < entropy_eps / ln b) by (apply Rdiv_lt_0_compat; [apply eps_pos|exact L]). nra. }
  intros Hi Hj. destruct (Nat.le_ge_cases i j) as [O|O]; [apply W; assumption|]. rewrite data_mi_sym. apply W; assumption.
Qed.
