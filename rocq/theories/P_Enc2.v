(** Running the layers on a batch given by its entries. *)
From Coq Require Import Reals String Lra.
From Verif Require Import Base BaseFacts RBase RFacts M_Data M_Enc S_Data S_Enc P_Enc1.
Import List.
Local Open Scope R_scope.

Definition rows_of (N n : nat) (m : nat -> nat -> R) : list (list R) :=
  map (fun r => map (m r) (seq 0 n)) (seq 0 N).

Lemma rows_of_length : forall N n m, List.length (rows_of N n m) = N.
Proof. intros. unfold rows_of. rewrite map_length, seq_length. reflexivity. Qed.

Lemma rows_of_width : forall N n m, all_width n (rows_of N n m) = true.
Proof.
  intros. unfold all_width. apply forallb_forall. intros r H. apply in_map_iff in H. destruct H as (i & E & _).
  subst r. rewrite map_length, seq_length. apply Nat.eqb_refl.
Qed.

Lemma rows_of_ext : forall N n m m', (forall r j, (r < N)%nat -> (j < n)%nat -> m r j = m' r j) -> rows_of N n m = rows_of N n m'.
Proof.
  intros N n m m' H. unfold rows_of. apply map_ext_in. intros r Hr. apply in_seq in Hr.
  apply map_ext_in. intros j Hj. apply in_seq in Hj. apply H; lia.
Qed.

Lemma nth_map_seq : forall {A} (d : A) n (g : nat -> A) i, (i < n)%nat -> nth i (map g (seq 0 n)) d = g i.
Proof.
  intros A d n g i H. rewrite (nth_indep _ d (g 0%nat)) by (rewrite map_length, seq_length; exact H).
  rewrite map_nth, seq_nth by exact H. reflexivity.
Qed.

Lemma rows_of_batch : forall n xs, Forall (fun r => List.length r = n) xs -> xs = rows_of (List.length xs) n (entry xs).
Proof.
  intros n xs H. unfold rows_of. apply nth_ext with (d := []) (d' := []).
  - rewrite map_length, seq_length. reflexivity.
  - intros r Hr. rewrite nth_map_seq by exact Hr.
    assert (Hl : List.length (nth r xs []) = n) by (rewrite Forall_forall in H; apply H; apply nth_In; exact Hr).
    apply nth_ext with (d := 0) (d' := 0).
    + rewrite map_length, seq_length. exact Hl.
    + intros i Hi. rewrite nth_map_seq by lia. reflexivity.
Qed.

Lemma sumn_ext_lt : forall n f g, (forall i, (i < n)%nat -> f i = g i) -> sumn n f = sumn n g.
Proof. induction n; cbn; intros f g H; [reflexivity|]. rewrite (IHn f g), (H n); auto. Qed.

Lemma linear_rows_of : forall v k nin nout N m,
  linear_rows v k nin nout (rows_of N nin m) =
  Ok (rows_of N nout (fun r j => sumn nin (fun i => p_weight v k j i * m r i) + p_bias v k j)).
Proof.
  intros. unfold linear_rows. rewrite rows_of_width. f_equal. unfold rows_of. rewrite map_map.
  apply map_ext. intros r. apply map_ext. intros j. f_equal. apply sumn_ext_lt. intros i Hi.
  rewrite nth_map_seq by exact Hi. reflexivity.
Qed.

Lemma linear_rows_bad : forall v k nin nout xs, ~ Forall (fun r => List.length r = nin) xs ->
  linear_rows v k nin nout xs = Err RuntimeError.
Proof.
  intros v k nin nout xs H. unfold linear_rows. destruct (all_width nin xs) eqn:E; [|reflexivity].
  destruct H. apply Forall_forall. intros r Hr. unfold all_width in E. rewrite forallb_forall in E.
  apply Nat.eqb_eq. apply E. exact Hr.
Qed.

Lemma column_mean_rows : forall N n m j, (j < n)%nat -> column_mean j (rows_of N n m) = unit_mean N (fun r => m r j).
Proof.
  intros N n m j H. unfold column_mean, unit_mean. rewrite rows_of_length. f_equal.
  unfold rows_of. rewrite map_map. rewrite rsum_map_seq. apply sumn_ext_lt. intros r Hr. rewrite nth_map_seq by exact H. reflexivity.
Qed.

Lemma column_var_rows : forall N n m j, (j < n)%nat -> column_var j (rows_of N n m) = unit_var N (fun r => m r j).
Proof.
  intros N n m j H. unfold column_var, unit_var. rewrite rows_of_length. f_equal.
  rewrite column_mean_rows by exact H.
  unfold rows_of. rewrite map_map. rewrite rsum_map_seq. apply sumn_ext_lt. intros r Hr. rewrite nth_map_seq by exact H. reflexivity.
Qed.

Lemma map_over : forall {A} (g : list R -> A) N n m, map g (rows_of N n m) = map (fun r => g (map (m r) (seq 0 n))) (seq 0 N).
Proof. intros. unfold rows_of. apply map_map. Qed.

Lemma batch_norm_rows : forall v training k n N m, (training = true -> N <> 1%nat) ->
  batch_norm v training k n (rows_of N n m) =
  Ok (rows_of N n (fun r j => normalise training N (p_gamma v k j) (p_beta v k j) (p_mean v k j) (p_var v k j) (fun s => m s j) (m r j))).
Proof.
  intros v training k n N m H. unfold batch_norm. rewrite rows_of_length, rows_of_width.
  replace (training && (N =? 1)%nat) with false.
  2:{ symmetry. apply andb_false_iff. destruct training; [right; apply Nat.eqb_neq; apply H; reflexivity | left; reflexivity]. }
  f_equal. rewrite map_over. apply map_ext_in. intros r Hr. apply in_seq in Hr.
  apply map_ext_in. intros j Hj. apply in_seq in Hj. rewrite nth_map_seq by lia.
  unfold normalise. destruct training; [|reflexivity].
  rewrite column_mean_rows, column_var_rows by lia. reflexivity.
Qed.

Lemma batch_norm_single : forall v k n xs, List.length xs = 1%nat -> batch_norm v true k n xs = Err ValueError.
Proof. intros v k n xs H. unfold batch_norm. rewrite H. reflexivity. Qed.

Lemma batch_norm_bad : forall v training k n n' N m, n <> n' -> N <> 0%nat -> (training = true -> N <> 1%nat) ->
  batch_norm v training k n (rows_of N n' m) = Err RuntimeError.
Proof.
  intros v training k n n' N m Hn HN H. unfold batch_norm. rewrite rows_of_length.
  replace (training && (N =? 1)%nat) with false.
  2:{ symmetry. apply andb_false_iff. destruct training; [right; apply Nat.eqb_neq; apply H; reflexivity | left; reflexivity]. }
  destruct N as [|N]; [contradiction|]. unfold all_width, rows_of. cbn [seq map forallb].
  rewrite map_length, seq_length. rewrite (proj2 (Nat.eqb_neq n' n)) by auto. reflexivity.
Qed.

Lemma map_rows_of : forall f N n m, map (map f) (rows_of N n m) = rows_of N n (fun r j => f (m r j)).
Proof. intros. unfold rows_of. rewrite map_map. apply map_ext. intros r. apply map_map. Qed.

Lemma run_layers_app : forall f v training l1 l2 xs,
  run_layers f v training (l1 ++ l2) xs = bind (run_layers f v training l1 xs) (run_layers f v training l2).
Proof.
  intros. unfold run_layers. rewrite fold_left_app. set (r := fold_left _ l1 _). clearbody r.
  destruct r as [ys|e]; [reflexivity|]. cbn [bind].
  induction l2 as [|m l2 IH]; [reflexivity|]. cbn [fold_left bind]. exact IH.
Qed.

Lemma run_layers_cons : forall f v training m l xs,
  run_layers f v training (m :: l) xs = bind (run_layer f v training m xs) (run_layers f v training l).
Proof. intros. exact (run_layers_app f v training [m] l xs). Qed.

Section Stack.
  Variables (f : R -> R) (v : values) (training : bool) (inp : nat) (h : list nat) (nm : nat -> option string) (N : nat)
    (x : nat -> nat -> R).
  Hypothesis Hone : (exists k b, (k < List.length h)%nat /\ nm k = Some b) -> training = true -> N <> 1%nat.

  Definition units : nat -> nat -> nat -> R :=
    hidden_unit (fun k => nth k (inp :: h) 0%nat) (fun k => p_weight v (numbered "linear" k)) (fun k => p_bias v (numbered "linear" k))
      (norm_of v training N nm) f x.

  Lemma run_block : forall k, (k < List.length h)%nat ->
    run_layers f v training (block inp h nm k) (rows_of N (nth k (inp :: h) 0%nat) (units k)) =
    Ok (rows_of N (nth k h 0%nat) (units (S k))).
  Proof.
    intros k Hk. unfold block. rewrite run_layers_cons. unfold run_layer at 1. cbn [fst snd].
    rewrite linear_rows_of. cbn [bind]. rewrite run_layers_app.
    destruct (nm k) as [b|] eqn:E.
    - rewrite run_layers_cons. unfold run_layer at 1. cbn [fst snd].
      rewrite batch_norm_rows by (apply Hone; exists k, b; split; assumption).
      cbn [bind]. unfold run_layers. cbn [fold_left bind]. unfold run_layer. cbn [fst snd]. rewrite map_rows_of.
      f_equal. apply rows_of_ext. intros r j Hr Hj. unfold units. cbn [hidden_unit]. unfold norm_of. rewrite E. reflexivity.
    - unfold run_layers. cbn [fold_left bind]. unfold run_layer. cbn [fst snd]. rewrite map_rows_of.
      f_equal. apply rows_of_ext. intros r j Hr Hj. unfold units. cbn [hidden_unit]. unfold norm_of. rewrite E. reflexivity.
  Qed.

  Lemma run_blocks : forall n, (n <= List.length h)%nat ->
    run_layers f v training (flat_map (block inp h nm) (seq 0 n)) (rows_of N inp x) =
    Ok (rows_of N (nth n (inp :: h) 0%nat) (units n)).
  Proof.
    induction n as [|n IH]; intros H.
    - reflexivity.
    - rewrite seq_S, flat_map_app, run_layers_app, IH by lia. cbn [bind flat_map Nat.add]. rewrite app_nil_r.
      apply run_block. lia.
  Qed.
End Stack.

Lemma nth_len_cons : forall inp h0 (t : list nat), nth (List.length (h0 :: t)) (inp :: h0 :: t) 0%nat = last (h0 :: t) 0%nat.
Proof.
  intros. change (nth (List.length (h0 :: t)) (inp :: h0 :: t) 0%nat) with (nth (List.length t) (h0 :: t) 0%nat).
  rewrite <- nth_last_nat. f_equal. cbn [List.length]. lia.
Qed.

Lemma encodes_rows : forall N lv width ow ob g hid m,
  (forall r j, (r < N)%nat -> (j < lv)%nat -> m r j = g (sumn width (fun i => ow j i * hid r i) + ob j)) ->
  encodes N lv width ow ob g hid (rows_of N lv m).
Proof.
  intros N lv width ow ob g hid m H. unfold encodes. split; [apply rows_of_length|]. split.
  - apply Forall_forall. intros r Hr. unfold rows_of in Hr. apply in_map_iff in Hr. destruct Hr as (i & E & _). subst r.
    rewrite map_length, seq_length. reflexivity.
  - intros r j Hr Hj. unfold at_, rows_of. rewrite nth_error_map.
    rewrite nth_error_seq by exact Hr. cbn [option_map]. rewrite nth_error_map, nth_error_seq by exact Hj. cbn [option_map Nat.add].
    rewrite H by assumption. reflexivity.
Qed.
