(** What the three encoders compute, and when they fail. *)
From Coq Require Import Reals String Lra.
From Verif Require Import Base BaseFacts RBase RFacts M_Data M_Enc S_Data S_Enc P_Data P_Enc1 P_Enc2.
Import List.
Local Open Scope R_scope.

Lemma lin_error : forall f v training k nin nout rest xs, ~ Forall (fun r => List.length r = nin) xs ->
  run_layers f v training ((k, Linear nin nout) :: rest) xs = Err RuntimeError.
Proof. intros. rewrite run_layers_cons. unfold run_layer. cbn [fst snd]. rewrite linear_rows_bad by assumption. reflexivity. Qed.

Lemma run_stack : forall f v training inp h0 t nm xs, let h := h0 :: t in
  Forall (fun r => List.length r = inp) xs ->
  ((exists k b, (k < List.length h)%nat /\ nm k = Some b) -> training = true -> List.length xs <> 1%nat) ->
  run_layers f v training (flat_map (block inp h nm) (seq 0 (List.length h))) xs =
  Ok (rows_of (List.length xs) (last h 0%nat) (hidden_of f v training inp h nm xs)).
Proof.
  intros f v training inp h0 t nm xs h Hw Hone.
  rewrite (rows_of_batch inp xs Hw) at 1. rewrite run_blocks by auto.
  unfold h at 1. rewrite nth_len_cons. reflexivity.
Qed.

Theorem standard_correct : forall f v training bn inp lv h xs,
  h <> [] -> Forall (fun r => List.length r = inp) xs -> (bn = true -> training = true -> List.length xs <> 1%nat) ->
  exists e out, standard_encoder bn inp lv h = Ok e /\ run_layers f v training e xs = Ok out /\
    encodes (List.length xs) lv (last h 0%nat) (p_weight v (numbered "linear" (List.length h + 1)))
      (p_bias v (numbered "linear" (List.length h + 1))) (fun y => y) (hidden_of f v training inp h (standard_name bn) xs) out.
Proof.
  intros f v training bn inp lv h xs Hh Hw Hone. rewrite standard_form by exact Hh. eexists. eexists.
  split; [reflexivity|]. destruct h as [|h0 t]; [contradiction|].
  rewrite run_layers_app, run_stack; [|exact Hw|].
  2:{ intros (k & b & _ & E). unfold standard_name in E. destruct bn; [|discriminate]. apply Hone. reflexivity. }
  cbn [bind]. rewrite run_layers_cons. unfold run_layer at 1. cbn [fst snd]. rewrite linear_rows_of. cbn [bind].
  split; [reflexivity|]. apply encodes_rows. reflexivity.
Qed.

Theorem bounded_correct : forall f v training bn inp lv h xs,
  h <> [] -> (bn = true -> hd 0%nat h = last h 0%nat) ->
  Forall (fun r => List.length r = inp) xs -> (bn = true -> training = true -> List.length xs <> 1%nat) ->
  exists e out, bounded_encoder bn inp lv h = Ok e /\ run_layers f v training e xs = Ok out /\
    encodes (List.length xs) lv (last h 0%nat) (p_weight v (numbered "linear" (List.length h + 1)))
      (p_bias v (numbered "linear" (List.length h + 1))) tanh (hidden_of f v training inp h (only_first bn) xs) out.
Proof.
  intros f v training bn inp lv h xs Hh Hs Hw Hone. destruct h as [|h0 t]; [contradiction|].
  unfold bounded_encoder. rewrite renamed_stack. cbn [bind]. eexists. eexists. split; [reflexivity|].
  set (n := List.length (h0 :: t)).
  assert (Hn : forall k, In k (map fst (renamed_list bn inp (h0 :: t) (n - 1))) -> below n k).
  { intros k Hk. apply renamed_names in Hk. eapply below_mono; [|exact Hk]. subst n. cbn [List.length]. lia. }
  rewrite (add_module_new (numbered "linear" (n + 1))).
  2:{ intros Hin. apply Hn in Hin. apply below_linear in Hin. lia. }
  rewrite add_module_new.
  2:{ rewrite map_app, in_app_iff. intros [Hin|[Hin|[]]]; [apply Hn in Hin; apply below_tanh in Hin; exact Hin | discriminate Hin]. }
  rewrite <- app_assoc. subst n. rewrite renamed_blocks by (intros E; symmetry; exact (Hs E)).
  rewrite run_layers_app, run_stack; [|exact Hw|].
  2:{ intros (k & b & _ & E). unfold only_first in E. destruct bn; [|discriminate]. apply Hone. reflexivity. }
  cbn [bind app]. rewrite run_layers_cons. unfold run_layer at 1. cbn [fst snd]. rewrite linear_rows_of. cbn [bind].
  rewrite run_layers_cons. unfold run_layer at 1. cbn [fst snd]. rewrite map_rows_of. cbn [bind].
  split; [reflexivity|]. apply encodes_rows. reflexivity.
Qed.

Theorem variational_correct : forall f v training bn inp lv h xs,
  h <> [] -> (bn = true -> hd 0%nat h = last h 0%nat) ->
  Forall (fun r => List.length r = inp) xs -> (bn = true -> training = true -> List.length xs <> 1%nat) ->
  exists e mu lvar, variational_encoder bn inp lv h = Ok e /\ run_variational f v training e xs = Ok (mu, lvar) /\
    encodes (List.length xs) lv (last h 0%nat) (p_weight v "mu_layer") (p_bias v "mu_layer") (fun y => y)
      (hidden_of f v training inp h (only_first bn) xs) mu /\
    encodes (List.length xs) lv (last h 0%nat) (p_weight v "sigma_layer") (p_bias v "sigma_layer") (fun y => y)
      (hidden_of f v training inp h (only_first bn) xs) lvar.
Proof.
  intros f v training bn inp lv h xs Hh Hs Hw Hone. destruct h as [|h0 t]; [contradiction|].
  unfold variational_encoder. rewrite renamed_stack. cbn [bind]. eexists. eexists. eexists. split; [reflexivity|].
  unfold run_variational. rewrite renamed_blocks by (intros E; symmetry; exact (Hs E)).
  rewrite run_stack; [|exact Hw|].
  2:{ intros (k & b & _ & E). unfold only_first in E. destruct bn; [|discriminate]. apply Hone. reflexivity. }
  cbn [bind]. unfold run_layer. cbn [fst snd]. rewrite !linear_rows_of. cbn [bind].
  split; [reflexivity|]. split; apply encodes_rows; reflexivity.
Qed.

(** Different first and last sizes with normalisation: the forward pass fails. *)
Lemma renamed_mismatch : forall f v training inp h0 t rest xs, let h := h0 :: t in
  h0 <> last h 0%nat -> xs <> [] -> Forall (fun r => List.length r = inp) xs -> (training = true -> List.length xs <> 1%nat) ->
  run_layers f v training (renamed_list true inp h (List.length h - 1) ++ rest) xs = Err RuntimeError.
Proof.
  intros f v training inp h0 t rest xs h Hs Hx Hw Hone. unfold renamed_list. cbn [app].
  rewrite run_layers_cons. unfold run_layer at 1. cbn [fst snd].
  rewrite (rows_of_batch inp xs Hw) at 1. rewrite linear_rows_of. cbn [bind].
  rewrite run_layers_cons. unfold run_layer at 1. cbn [fst snd].
  rewrite batch_norm_bad; [reflexivity| | |exact Hone].
  - unfold h. rewrite nth_last_nat. fold h. cbn [nth]. intros E. apply Hs. symmetry. exact E.
  - intros E. apply Hx. apply length_zero_iff_nil. exact E.
Qed.

Lemma bounded_form : forall bn inp lv h0 t, let h := h0 :: t in exists rest,
  bounded_encoder bn inp lv h = Ok (renamed_list bn inp h (List.length h - 1) ++ rest).
Proof.
  intros bn inp lv h0 t h. unfold bounded_encoder, h. rewrite renamed_stack. cbn [bind]. fold h.
  assert (Hn : forall k, In k (map fst (renamed_list bn inp h (List.length h - 1))) -> below (List.length h) k).
  { intros k Hk. apply renamed_names in Hk. eapply below_mono; [|exact Hk]. unfold h. cbn [List.length]. lia. }
  rewrite (add_module_new (numbered "linear" (List.length h + 1))).
  2:{ intros Hin. apply Hn in Hin. apply below_linear in Hin. lia. }
  rewrite add_module_new.
  2:{ rewrite map_app, in_app_iff. intros [Hin|[Hin|[]]]; [apply Hn in Hin; apply below_tanh in Hin; exact Hin | discriminate Hin]. }
  rewrite <- app_assoc. eexists. reflexivity.
Qed.

Theorem renamed_fails : forall f v training inp lv h xs,
  h <> [] -> hd 0%nat h <> last h 0%nat -> xs <> [] -> Forall (fun r => List.length r = inp) xs -> (training = true -> List.length xs <> 1%nat) ->
  (exists e, variational_encoder true inp lv h = Ok e /\ run_variational f v training e xs = Err RuntimeError) /\
  (exists e, bounded_encoder true inp lv h = Ok e /\ run_layers f v training e xs = Err RuntimeError).
Proof.
  intros f v training inp lv h xs Hh Hs Hx Hw Hone. destruct h as [|h0 t]; [contradiction|]. cbn [hd] in Hs. split.
  - unfold variational_encoder. rewrite renamed_stack. cbn [bind]. eexists. split; [reflexivity|].
    unfold run_variational. rewrite <- (app_nil_r (renamed_list _ _ _ _)). rewrite renamed_mismatch by assumption. reflexivity.
  - destruct (bounded_form true inp lv h0 t) as (rest & E). eexists. split; [exact E|].
    apply renamed_mismatch; assumption.
Qed.

(** A row of the wrong width, a single row in training, no hidden layers. *)
Lemma standard_head : forall bn inp lv h0 t, exists rest,
  standard_encoder bn inp lv (h0 :: t) = Ok ((numbered "linear" 0, Linear inp h0) ::
    match bn with true => [("batchnorm0"%string, BatchNorm h0)] | false => [] end ++ rest).
Proof.
  intros bn inp lv h0 t. rewrite standard_form by discriminate.
  cbn [List.length seq flat_map]. unfold block at 1, standard_name at 1. cbn [nth]. destruct bn; cbn [app]; eexists; reflexivity.
Qed.

Theorem wrong_width : forall f v training bn inp lv h xs, h <> [] -> ~ Forall (fun r => List.length r = inp) xs ->
  (exists e, standard_encoder bn inp lv h = Ok e /\ run_layers f v training e xs = Err RuntimeError) /\
  (exists e, bounded_encoder bn inp lv h = Ok e /\ run_layers f v training e xs = Err RuntimeError) /\
  (exists e, variational_encoder bn inp lv h = Ok e /\ run_variational f v training e xs = Err RuntimeError).
Proof.
  intros f v training bn inp lv h xs Hh Hw. destruct h as [|h0 t]; [contradiction|]. split; [|split].
  - destruct (standard_head bn inp lv h0 t) as (rest & E). eexists. split; [exact E|]. apply lin_error; assumption.
  - destruct (bounded_form bn inp lv h0 t) as (rest & E). eexists. split; [exact E|].
    unfold renamed_list. cbn [app]. apply lin_error; assumption.
  - unfold variational_encoder. rewrite renamed_stack. cbn [bind]. eexists. split; [reflexivity|].
    unfold run_variational, renamed_list. rewrite lin_error by assumption. reflexivity.
Qed.

Lemma single_error : forall f v k inp h0 b n rest xs, Forall (fun r => List.length r = inp) xs -> List.length xs = 1%nat ->
  run_layers f v true ((k, Linear inp h0) :: (b, BatchNorm n) :: rest) xs = Err ValueError.
Proof.
  intros f v k inp h0 b n rest xs Hw H1. rewrite run_layers_cons. unfold run_layer at 1. cbn [fst snd].
  rewrite (rows_of_batch inp xs Hw) at 1. rewrite linear_rows_of. cbn [bind].
  rewrite run_layers_cons. unfold run_layer at 1. cbn [fst snd]. rewrite batch_norm_single; [reflexivity|].
  rewrite rows_of_length. exact H1.
Qed.

Theorem single_row : forall f v inp lv h xs, h <> [] -> Forall (fun r => List.length r = inp) xs -> List.length xs = 1%nat ->
  (exists e, standard_encoder true inp lv h = Ok e /\ run_layers f v true e xs = Err ValueError) /\
  (exists e, bounded_encoder true inp lv h = Ok e /\ run_layers f v true e xs = Err ValueError) /\
  (exists e, variational_encoder true inp lv h = Ok e /\ run_variational f v true e xs = Err ValueError).
Proof.
  intros f v inp lv h xs Hh Hw H1. destruct h as [|h0 t]; [contradiction|]. split; [|split].
  - destruct (standard_head true inp lv h0 t) as (rest & E). eexists. split; [exact E|]. cbn [app]. apply single_error; assumption.
  - destruct (bounded_form true inp lv h0 t) as (rest & E). eexists. split; [exact E|].
    unfold renamed_list. cbn [app]. apply single_error; assumption.
  - unfold variational_encoder. rewrite renamed_stack. cbn [bind]. eexists. split; [reflexivity|].
    unfold run_variational, renamed_list. cbn [app]. rewrite single_error by assumption. reflexivity.
Qed.

Theorem no_hidden : forall bn inp lv, standard_encoder bn inp lv [] = Err IndexError /\
  bounded_encoder bn inp lv [] = Err IndexError /\ variational_encoder bn inp lv [] = Err IndexError.
Proof. intros. split; [|split]; reflexivity. Qed.

Lemma norms_app : forall a b, norms (a ++ b) = (norms a + norms b)%nat.
Proof. intros. unfold norms. rewrite filter_app, app_length. reflexivity. Qed.

Lemma norms_blocks : forall inp h nm n s,
  norms (flat_map (block inp h nm) (seq s n)) = List.length (filter (fun k => match nm k with Some _ => true | None => false end) (seq s n)).
Proof.
  intros inp h nm n. induction n as [|n IH]; intros s; [reflexivity|]. cbn [seq flat_map filter]. rewrite norms_app, IH.
  unfold block, norms. cbn [filter is_norm snd]. rewrite filter_app, app_length. destruct (nm s); reflexivity.
Qed.

Theorem norm_counts : forall inp lv h, h <> [] ->
  (exists e, standard_encoder true inp lv h = Ok e /\ norms e = List.length h) /\
  (exists e mu s, variational_encoder true inp lv h = Ok (e, mu, s) /\ norms e = 1%nat) /\
  (exists e, bounded_encoder true inp lv h = Ok e /\ norms e = 1%nat).
Proof.
  intros inp lv h Hh. destruct h as [|h0 t]; [contradiction|].
  assert (H1 : norms (renamed_list true inp (h0 :: t) (List.length (h0 :: t) - 1)) = 1%nat).
  { unfold renamed_list. cbn [app]. unfold norms. cbn [filter is_norm snd List.length]. f_equal.
    fold (norms (flat_map (block inp (h0 :: t) (fun _ => None)) (seq 1 (S (List.length t) - 1)))). rewrite norms_blocks.
    generalize (seq 1 (S (List.length t) - 1)). intros l. induction l; auto. }
  split; [|split].
  - rewrite standard_form by discriminate. eexists. split; [reflexivity|]. rewrite norms_app, norms_blocks. cbn [norms filter is_norm snd List.length].
    unfold norms. cbn [filter is_norm snd List.length]. rewrite Nat.add_0_r. unfold standard_name.
    change (S (List.length t)) with (List.length (h0 :: t)).
    transitivity (List.length (seq 0 (List.length (h0 :: t)))); [|apply seq_length]. f_equal.
    generalize (seq 0 (List.length (h0 :: t))). intros l. induction l as [|a l IH]; [reflexivity|]. cbn [filter]. rewrite IH. reflexivity.
  - unfold variational_encoder. rewrite renamed_stack. cbn [bind]. eexists. eexists. eexists. split; [reflexivity|]. exact H1.
  - unfold bounded_encoder. rewrite renamed_stack. cbn [bind].
    assert (Hn : forall k, In k (map fst (renamed_list true inp (h0 :: t) (List.length (h0 :: t) - 1))) -> below (List.length (h0 :: t)) k).
    { intros k Hk. apply renamed_names in Hk. eapply below_mono; [|exact Hk]. cbn [List.length]. lia. }
    rewrite (add_module_new (numbered "linear" (List.length (h0 :: t) + 1))).
    2:{ intros Hin. apply Hn in Hin. apply below_linear in Hin. lia. }
    rewrite add_module_new.
    2:{ rewrite map_app, in_app_iff. intros [Hin|[Hin|[]]]; [apply Hn in Hin; apply below_tanh in Hin; exact Hin | discriminate Hin]. }
    eexists. split; [reflexivity|]. rewrite !norms_app, H1. reflexivity.
Qed.

(** Hyperbolic tangent. *)
Lemma tanh_bounds : forall y, -1 < tanh y < 1.
Proof.
  intros y. unfold tanh, sinh, cosh. pose proof (exp_pos y). pose proof (exp_pos (- y)). split.
  - apply Rmult_lt_reg_r with ((exp y + exp (- y)) / 2); [lra|]. unfold Rdiv. rewrite !Rmult_assoc. rewrite Rinv_l; lra.
  - apply Rmult_lt_reg_r with ((exp y + exp (- y)) / 2); [lra|]. unfold Rdiv. rewrite !Rmult_assoc. rewrite Rinv_l; lra.
Qed.

(** Encoding response data. *)
Lemma to_rows_width : forall cats rows enc, Forall2 (is_one_hot cats) rows enc ->
  Forall (fun r => List.length r = list_sum cats) (to_rows enc) /\ List.length (to_rows enc) = List.length rows.
Proof.
  intros cats rows enc H. unfold to_rows. induction H as [|a b la lb Hab H IH]; cbn [map List.length]; [split; [constructor|reflexivity]|].
  destruct IH as [I1 I2]. split; [|congruence]. constructor; [|exact I1]. rewrite map_length. apply Hab.
Qed.

Theorem ae_scores_correct : forall f v bn lv hidden d cats, (forall h, hidden = Some h -> h <> []) ->
  rectangular d -> m_cols d = List.length cats -> cats <> [] -> legal cats d ->
  exists e enc out, ae_encoder true bn lv hidden cats = Ok e /\
    fst (one_hot_encode d cats) = Ok enc /\ Forall2 (is_one_hot cats) (m_rows d) enc /\
    ae_scores f v e d cats = Ok out /\
    let h := match hidden with Some h => h | None => [(2 * list_sum cats)%nat] end in
    encodes (List.length (m_rows d)) lv (last h 0%nat) (p_weight v (numbered "linear" (List.length h + 1)))
      (p_bias v (numbered "linear" (List.length h + 1))) (fun y => y)
      (hidden_of f v false (list_sum cats) h (standard_name bn) (map (map IZR) enc)) out.
Proof.
  intros f v bn lv hidden d cats Hh Hr Hc Hn Hl.
  destruct (one_hot_correct d cats Hr Hc Hn Hl) as (enc & E & F).
  destruct (to_rows_width _ _ _ F) as [W L].
  set (h := match hidden with Some h => h | None => [(2 * list_sum cats)%nat] end).
  assert (Hh' : h <> []) by (unfold h; destruct hidden as [h1|]; [apply Hh; reflexivity | discriminate]).
  destruct (standard_correct f v false bn (list_sum cats) lv h (to_rows enc) Hh' W) as (e & out & E1 & E2 & E3); [discriminate|].
  exists e, enc, out. split.
  { unfold ae_encoder, encoder_input, encoder_hidden. fold h. exact E1. }
  split; [exact E|]. split; [exact F|]. split.
  { unfold ae_scores. rewrite E. cbn [bind]. exact E2. }
  cbv zeta. rewrite <- L. exact E3.
Qed.

Theorem vae_scores_correct : forall f v bn lv hidden d cats, (forall h, hidden = Some h -> h <> [] /\ (bn = true -> hd 0%nat h = last h 0%nat)) ->
  rectangular d -> m_cols d = List.length cats -> cats <> [] -> legal cats d ->
  exists e enc out, vae_encoder true bn lv hidden cats = Ok e /\
    fst (one_hot_encode d cats) = Ok enc /\ Forall2 (is_one_hot cats) (m_rows d) enc /\
    vae_scores f v e d cats = Ok out /\
    let h := match hidden with Some h => h | None => [(2 * list_sum cats)%nat] end in
    encodes (List.length (m_rows d)) lv (last h 0%nat) (p_weight v "mu_layer") (p_bias v "mu_layer") (fun y => y)
      (hidden_of f v false (list_sum cats) h (only_first bn) (map (map IZR) enc)) out.
Proof.
  intros f v bn lv hidden d cats Hh Hr Hc Hn Hl.
  destruct (one_hot_correct d cats Hr Hc Hn Hl) as (enc & E & F).
  destruct (to_rows_width _ _ _ F) as [W L].
  set (h := match hidden with Some h => h | None => [(2 * list_sum cats)%nat] end).
  assert (Hh' : h <> [] /\ (bn = true -> hd 0%nat h = last h 0%nat)).
  { unfold h. destruct hidden as [h1|]; [apply Hh; reflexivity | split; [discriminate | reflexivity]]. }
  destruct Hh' as [Hh' Hs].
  destruct (variational_correct f v false bn (list_sum cats) lv h (to_rows enc) Hh' Hs W) as (e & mu & lvar & E1 & E2 & E3 & _); [discriminate|].
  exists e, enc, mu. split.
  { unfold vae_encoder, encoder_input, encoder_hidden. fold h. exact E1. }
  split; [exact E|]. split; [exact F|]. split.
  { unfold vae_scores. rewrite E. cbn [bind]. rewrite E2. reflexivity. }
  cbv zeta. rewrite <- L. exact E3.
Qed.

(** In evaluation mode rows are encoded one by one. *)
Lemma hidden_row : forall f v inp h nm xs ys r s, nth r xs [] = nth s ys [] -> forall k j,
  hidden_unit (fun k => nth k (inp :: h) 0%nat) (fun k => p_weight v (numbered "linear" k)) (fun k => p_bias v (numbered "linear" k))
    (norm_of v false (List.length xs) nm) f (entry xs) k r j =
  hidden_unit (fun k => nth k (inp :: h) 0%nat) (fun k => p_weight v (numbered "linear" k)) (fun k => p_bias v (numbered "linear" k))
    (norm_of v false (List.length ys) nm) f (entry ys) k s j.
Proof.
  intros f v inp h nm xs ys r s H k. induction k as [|k IH]; intros j; cbn [hidden_unit].
  - unfold entry. rewrite H. reflexivity.
  - f_equal. match goal with |- norm_of _ _ _ _ _ _ ?c ?x = norm_of _ _ _ _ _ _ ?c' ?y =>
      transitivity (norm_of v false (List.length ys) nm k j c' x); [reflexivity|]; replace x with y; [reflexivity|] end.
    f_equal. apply sumn_ext_lt. intros i Hi. rewrite IH. reflexivity.
Qed.

Lemma encodes_row : forall N lv w ow ob g hid out r, encodes N lv w ow ob g hid out -> (r < N)%nat ->
  nth_error out r = Some (map (fun j => g (sumn w (fun i => ow j i * hid r i) + ob j)) (seq 0 lv)).
Proof.
  intros N lv w ow ob g hid out r (L & W & V) Hr.
  destruct (nth_error out r) as [row|] eqn:E; [|apply nth_error_None in E; lia].
  f_equal. rewrite Forall_forall in W. pose proof (W _ (nth_error_In _ _ E)) as Hl.
  apply nth_error_ext. intros j. destruct (lt_dec j lv) as [Hj|Hj].
  - specialize (V r j Hr Hj). unfold at_ in V. rewrite E in V. rewrite V, nth_error_map, nth_error_seq by exact Hj. reflexivity.
  - rewrite (proj2 (nth_error_None row j)) by lia. symmetry. apply nth_error_None. rewrite map_length, seq_length. lia.
Qed.

Theorem standard_rowwise : forall f v bn inp lv h xs, h <> [] -> Forall (fun r => List.length r = inp) xs ->
  exists e out, standard_encoder bn inp lv h = Ok e /\ run_layers f v false e xs = Ok out /\
    forall r x, nth_error xs r = Some x -> exists y, run_layers f v false e [x] = Ok [y] /\ nth_error out r = Some y.
Proof.
  intros f v bn inp lv h xs Hh Hw.
  destruct (standard_correct f v false bn inp lv h xs Hh Hw) as (e & out & E1 & E2 & E3); [discriminate|].
  exists e, out. split; [exact E1|]. split; [exact E2|]. intros r x Hx.
  assert (Hr : (r < List.length xs)%nat) by (apply nth_error_Some; congruence).
  assert (Hw1 : Forall (fun r => List.length r = inp) [x]).
  { constructor; [|constructor]. rewrite Forall_forall in Hw. apply Hw. eapply nth_error_In. exact Hx. }
  destruct (standard_correct f v false bn inp lv h [x] Hh Hw1) as (e' & out' & F1 & F2 & F3); [discriminate|].
  assert (e' = e) by congruence. subst e'.
  pose proof (encodes_row _ _ _ _ _ _ _ _ r E3 Hr) as R1.
  pose proof (encodes_row _ _ _ _ _ _ _ _ 0%nat F3 (Nat.lt_0_succ 0)) as R2.
  destruct F3 as (L1 & _). destruct out' as [|y [|]]; try discriminate L1.
  exists y. split; [exact F2|]. cbn [nth_error] in R2. rewrite R1, R2. f_equal. apply map_ext. intros j. f_equal.
  apply sumn_ext_lt. intros i Hi. f_equal. unfold hidden_of. apply hidden_row. cbn [nth]. apply nth_error_nth. exact Hx.
Qed.
