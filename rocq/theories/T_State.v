(** Answer keys (C63), flags during ML/MAP scoring (C65), accumulated training data (C67). *)
From Coq Require Import Reals.
From Verif Require Import Base BaseFacts RBase RFacts M_Data M_State S_State P_State1 P_State2 P_State3.
Local Open Scope Z_scope.

(** ** C63 *)

(** What the constructors of all models but the nested logit model check: no entry exceeds its item's
    number of categories.  A refusal is a ValueError. *)
Theorem C63_key_check : forall lv cats key,
  ((exists a, base_init lv cats (Some key) = Ok a) <->
   (cats <> [] /\ forall i k K, nth_error key i = Some k -> nth_error cats i = Some K -> k <= K)) /\
  (forall a, base_init lv cats (Some key) = Ok a -> built lv cats (Some key) a) /\
  (forall e, base_init lv cats (Some key) = Err e -> e = ValueError).
Proof. exact base_iff. Qed.
Print Assumptions C63_key_check.

(** Legal keys are accepted by both kinds of constructor and stored unchanged. *)
Theorem C63_legal_key : forall lv cats key, cats <> [] -> legal_key cats key ->
  (exists a, base_init lv cats (Some key) = Ok a /\ built lv cats (Some key) a) /\
  (exists a, nested_init lv cats key = Ok a /\ built lv cats (Some key) a).
Proof.
  intros lv cats key Hc [L H]. split.
  - destruct (base_iff lv cats key) as (B1 & B2 & _). destruct (proj2 B1) as (a & E).
    + split; [exact Hc|]. intros i k K A B. specialize (H i k K A B). lia.
    + exists a. auto.
  - destruct (nested_iff lv cats key) as (B1 & B2 & _). destruct (proj2 B1) as (a & E).
    + split; [exact Hc|]. intros i K HK. destruct (nth_error key i) as [k|] eqn:Ek.
      * exists k. split; [reflexivity|]. exact (H i k K Ek HK).
      * apply nth_error_None in Ek. assert (i < length cats)%nat by (apply nth_error_Some; congruence). lia.
    + exists a. auto.
Qed.
Print Assumptions C63_legal_key.

(** A model without a key is always built, from at least one item. *)
Theorem C63_no_key : forall lv cats, cats <> [] -> exists a, base_init lv cats None = Ok a /\ built lv cats None a.
Proof. intros lv cats H. apply base_accepts; [exact H|]. intros k E. discriminate E. Qed.
Print Assumptions C63_no_key.

(** An entry one or more above the number of categories is refused. *)
Theorem C63_too_large : forall lv cats key i k K, nth_error key i = Some k -> nth_error cats i = Some K -> K < k ->
  base_init lv cats (Some key) = Err ValueError /\ nested_init lv cats key = Err ValueError.
Proof.
  intros lv cats key i k K Hk HK Hlt. assert (E : base_init lv cats (Some key) = Err ValueError).
  { destruct (base_iff lv cats key) as (B1 & _ & B3). destruct (base_init lv cats (Some key)) as [a|e] eqn:E.
    - exfalso. destruct (proj1 B1) as [_ H]; [exists a; reflexivity|]. specialize (H i k K Hk HK). lia.
    - rewrite (B3 e eq_refl). reflexivity. }
  split; [exact E|]. unfold nested_init. rewrite E. reflexivity.
Qed.
Print Assumptions C63_too_large.

(** Finding: any entry of a legal key may be replaced by the number of categories itself or by a
    negative number, the key may be cut short or lengthened, and the model is still built. *)
Theorem C63_illegal_keys_refuted : forall lv cats key, cats <> [] -> legal_key cats key ->
  (forall i K bad, nth_error cats i = Some K -> bad <= K -> exists a, base_init lv cats (Some (upd i bad key)) = Ok a) /\
  (forall n, exists a, base_init lv cats (Some (firstn n key)) = Ok a) /\
  (forall extra, exists a, base_init lv cats (Some (key ++ extra)) = Ok a).
Proof.
  intros lv cats key Hc H. split; [|split].
  - intros i K bad. apply legal_upd_accepted. exact H.
  - intros n. apply short_accepted; assumption.
  - intros extra. apply long_accepted; assumption.
Qed.
Print Assumptions C63_illegal_keys_refuted.

(** What the user notices: with an accepted entry equal to the number of categories nobody can reach
    the full sum score, with the legal key the respondent who answers it does. *)
Theorem C63_unreachable_key_refuted : forall cats key i K, legal_key cats key -> nth_error cats i = Some K -> 0 <= K ->
  (sum_score_row (Some key) (map Some key) = Some (Z.of_nat (length cats)) /\ legal_row cats (map Some key)) /\
  forall row, legal_row cats row -> exists s, sum_score_row (Some (upd i K key)) row = Some s /\ s < Z.of_nat (length cats).
Proof. exact unreachable_key. Qed.
Print Assumptions C63_unreachable_key_refuted.

(** The nested logit model accepts exactly the keys giving every item one of its categories; entries
    beyond the last item are not looked at. *)
Theorem C63_nested_logit : forall lv cats key,
  ((exists a, nested_init lv cats key = Ok a) <->
   (cats <> [] /\ forall i K, nth_error cats i = Some K -> exists k, nth_error key i = Some k /\ 0 <= k < K)) /\
  (forall a, nested_init lv cats key = Ok a -> built lv cats (Some key) a) /\
  (forall e, nested_init lv cats key = Err e -> e = ValueError \/ e = IndexError).
Proof. exact nested_iff. Qed.
Print Assumptions C63_nested_logit.

Example C63_nonvacuous : legal_key [3; 2] [2; 0] /\ ~ legal_key [3; 2] [3; -1] /\
  base_init 1 [3; 2] (Some [3; -1]) = Ok (Attrs 1 [3; 2] 3 2 (Some [3; -1])) /\
  nested_init 1 [3; 2] [3; 0] = Err ValueError /\ nested_init 1 [3; 2] [2] = Err IndexError /\
  base_init 1 [3; 2] (Some [1; 3]) = Err ValueError.
Proof.
  split; [|split; [|repeat split]].
  - split; [reflexivity|]. intros i k K. destruct i as [|[|i]]; cbn; intros E1 E2; [ | | destruct i; discriminate E1].
    + assert (k = 2) by congruence. assert (K = 3) by congruence. lia.
    + assert (k = 0) by congruence. assert (K = 2) by congruence. lia.
  - intros [_ H]. specialize (H 0%nat 3 3 eq_refl eq_refl). lia.
Qed.

(** ** C65 *)
Local Open Scope nat_scope.

(** Parameter values and gradient buffers are those before the call, on return and on every exception. *)
Theorem C65_parameters_unchanged : forall w cuda v g fl, let s := fst (ml_map w cuda (start_scoring v g fl)) in
  sc_values s = v /\ sc_grads s = g /\ length (sc_flags s) = length fl.
Proof. exact values_kept. Qed.
Print Assumptions C65_parameters_unchanged.

(** A model all of whose parameters are trainable stays so, on return and on every failure of the prior,
    of the set-up of the optimiser or of an iteration. *)
Theorem C65_trainable : forall w cuda v g fl, all_true fl -> w_init w = None -> w_cpu w = None ->
  sc_flags (fst (ml_map w cuda (start_scoring v g fl))) = fl.
Proof. exact flags_trainable. Qed.
Print Assumptions C65_trainable.

(** An exception of an iteration reaches the caller unchanged. *)
Theorem C65_iteration_error : forall w (cuda : bool) v g fl n e, (w_map w = true -> w_has_prior w = true /\ w_prior w = None) ->
  w_init w = None -> w_setup w = None -> w_cpu w = None ->
  n < (if cuda then 50 else 40) -> (forall k, k < n -> w_raise w k = None /\ w_stop w k = false) -> w_raise w n = Some e ->
  exists s, ml_map w cuda (start_scoring v g fl) = (s, Some e) /\ sc_flags s = map (fun _ => true) fl.
Proof. exact iteration_error. Qed.
Print Assumptions C65_iteration_error.

(** Finding: flags are not put back but all set, so any parameter the user had frozen comes back trainable. *)
Theorem C65_frozen_refuted : forall w cuda v g fl s, ml_map w cuda (start_scoring v g fl) = (s, None) ->
  all_true (sc_flags s) /\ (In false fl -> sc_flags s <> fl).
Proof.
  intros w cuda v g fl s E. rewrite (flags_on_return _ _ _ _ _ _ E). split; [apply all_true_map|].
  intros H K. rewrite <- K in H. apply (all_true_map fl) in H. discriminate H.
Qed.
Print Assumptions C65_frozen_refuted.

(** Finding: a failure between the first change of the flags and the assignment of the starting values
    (for instance no room on the GPU) leaves every parameter frozen; the exception raised is not the one
    which occurred. *)
Theorem C65_failed_start_refuted : forall w cuda v g fl e, (w_map w = true -> w_has_prior w = true -> w_prior w = None) ->
  w_init w = Some e -> w_cpu w = None ->
  exists s, ml_map w cuda (start_scoring v g fl) = (s, Some (Exc UnboundLocalError)) /\
    length (sc_flags s) = length fl /\ all_false (sc_flags s) /\ (In true fl -> sc_flags s <> fl).
Proof.
  intros w cuda v g fl e Hp Hi Hc. eexists. split; [exact (flags_lost w cuda v g fl e Hp Hi Hc)|]. cbn [start_scoring sc_flags].
  split; [apply map_length|]. split; [apply all_false_map|]. intros H K. rewrite <- K in H. apply (all_false_map fl) in H. discriminate H.
Qed.
Print Assumptions C65_failed_start_refuted.

(** Finding: an exception of the set-up of the optimiser is reported as UnboundLocalError, as is one of the prior. *)
Theorem C65_error_masked_refuted : forall w cuda v g fl, w_cpu w = None ->
  (forall x, (w_map w = true -> w_has_prior w = true -> w_prior w = None) -> w_init w = None -> w_setup w = Some (Exc x) ->
    snd (ml_map w cuda (start_scoring v g fl)) = Some (Exc UnboundLocalError)) /\
  (forall e, w_map w = true -> w_has_prior w = true -> w_prior w = Some e ->
    ml_map w cuda (start_scoring v g fl) = (start_scoring v g fl, Some (Exc UnboundLocalError))).
Proof.
  intros w cuda v g fl Hc. split.
  - intros x Hp Hi Hs. exact (error_masked w cuda v g fl x Hp Hi Hs Hc).
  - intros e Hm Hp He. rewrite (exit_prior w cuda v g fl e); [rewrite Hc; reflexivity|]. repeat split; assumption.
Qed.
Print Assumptions C65_error_masked_refuted.

(** MAP scores after a fit which stored neither scores nor a covariance matrix: NameError, flags set. *)
Theorem C65_map_without_prior : forall w cuda v g fl, w_map w = true -> w_has_prior w = false ->
  w_init w = None -> w_setup w = None -> w_cpu w = None ->
  exists s, ml_map w cuda (start_scoring v g fl) = (s, Some (Exc OtherError)) /\ sc_flags s = map (fun _ : bool => true) fl.
Proof. exact map_without_prior. Qed.
Print Assumptions C65_map_without_prior.

Example C65_nonvacuous :
  let w i r c := World false false None i None (fun _ => [fun _ => 1%R]) (fun k => if k =? 2 then r else None) (fun k => k =? 5) c in
  ml_map (w None None None) false (start_scoring [2; 3]%R [0; 0]%R [true; false]) = (Scoring [2; 3]%R [0; 0]%R [true; true] true true, None) /\
  ml_map (w None (Some Interrupt) None) false (start_scoring [2]%R [0]%R [true]) = (Scoring [2]%R [0]%R [true] true true, Some Interrupt) /\
  ml_map (w (Some (Exc RuntimeError)) None None) true (start_scoring [2]%R [0]%R [true]) = (Scoring [2]%R [0]%R [false] false false, Some (Exc UnboundLocalError)).
Proof. repeat split. Qed.

(** ** C67 *)

(** After any history of fits with data of one width, failed calls included, the stored data are the
    rows of all calls in order. *)
Theorem C67_data_accumulate : forall w cs, cs <> [] -> Forall (fun c => m_cols (call_data c) = w) cs ->
  st_data (run_fits cs new_store) = Some (w, flat_map rows_of_call cs).
Proof. exact fits_data. Qed.
Print Assumptions C67_data_accumulate.

(** Data of another width are refused and nothing is changed. *)
Theorem C67_other_width : forall w cs c, cs <> [] -> Forall (fun c => m_cols (call_data c) = w) cs -> m_cols (call_data c) <> w ->
  run_fit c (run_fits cs new_store) = (run_fits cs new_store, Err RuntimeError).
Proof. intros w cs c Hc H Hw. eapply fit_bad_width; [apply fits_data; eassumption | auto]. Qed.
Print Assumptions C67_other_width.

(** After one fit with a new algorithm object every stored row has its scores; those of an autoencoder
    are the fitted encoder's for that respondent's input. *)
Theorem C67_first_fit : forall c, succeeds c -> stores_scores c ->
  snd (run_fit c new_store) = Ok tt /\
  exists rows x, st_data (fst (run_fit c new_store)) = Some (m_cols (call_data c), rows) /\
    st_scores (fst (run_fit c new_store)) = Some x /\ rows = rows_of_call c /\ length x = length rows /\
    (forall d b input enc, c = FitEncoder d b (Ok input) (Ok enc) ->
      forall r, r < length rows -> nth_error x r = Some (enc (input r))).
Proof.
  intros c Hs Hst. destruct (fit_scores c new_store I Hs Hst) as (E & x & Ex & HL). split; [exact E|].
  exists (rows_of_call c), x. split; [exact (fit_data c new_store I)|]. split; [exact Ex|]. split; [reflexivity|]. split; [exact HL|].
  intros d b input enc -> r Hr. assert (b = true) by (destruct Hs as [Hs _]; exact Hs). subst b.
  rewrite (encoder_scores d input enc new_store I) in Ex. assert (Ex' : x = map (fun r => enc (input r)) (seq 0 (length (m_rows d)))) by congruence.
  subst x. apply nth_error_map_seq. exact Hr.
Qed.
Print Assumptions C67_first_fit.

(** Finding: after an earlier call with at least one respondent the scores cover the last call only,
    so they are fewer than the stored rows. *)
Theorem C67_correspondence_refuted : forall w cs c, Forall (fun c => m_cols (call_data c) = w) (cs ++ [c]) ->
  flat_map rows_of_call cs <> [] -> succeeds c -> stores_scores c ->
  exists rows x, st_data (run_fits (cs ++ [c]) new_store) = Some (w, rows) /\
    st_scores (run_fits (cs ++ [c]) new_store) = Some x /\
    length x = length (rows_of_call c) /\ length x < length rows.
Proof.
  intros w cs c H Hne Hs Hst. exists (flat_map rows_of_call (cs ++ [c])).
  assert (Hw : width_ok (m_cols (call_data c)) (run_fits cs new_store)).
  { apply Forall_app in H. destruct H as [H1 H2]. inversion H2 as [|a l Ha _]; subst. apply fits_width. exact H1. }
  destruct (fit_scores c _ Hw Hs Hst) as (_ & x & Ex & HL). exists x.
  split; [apply fits_data; [destruct cs; discriminate | exact H]|]. rewrite fits_snoc. split; [exact Ex|]. split; [exact HL|].
  rewrite flat_map_app, app_length. cbn [flat_map]. rewrite app_nil_r, HL.
  destruct (flat_map rows_of_call cs); [contradiction|]. cbn [length]. lia.
Qed.
Print Assumptions C67_correspondence_refuted.

(** Finding: a call which fails in training has stored its data all the same, next to the scores of the
    call before (autoencoders) or to the starting values (joint maximum likelihood). *)
Theorem C67_failed_fit_refuted : forall w cs d e, Forall (fun c => m_cols (call_data c) = w) cs -> m_cols d = w ->
  (forall b i, let c := FitEncoder d b i (Err e) in
    (exists x, snd (run_fit c (run_fits cs new_store)) = Err x) /\
    st_data (run_fits (cs ++ [c]) new_store) = Some (w, flat_map rows_of_call cs ++ m_rows d) /\
    st_scores (run_fits (cs ++ [c]) new_store) = st_scores (run_fits cs new_store)) /\
  (forall lv default, let c := FitJoint d lv None default (Err e) in
    snd (run_fit c (run_fits cs new_store)) = Err e /\
    st_data (run_fits (cs ++ [c]) new_store) = Some (w, flat_map rows_of_call cs ++ m_rows d) /\
    exists x, st_scores (run_fits (cs ++ [c]) new_store) = Some x /\
      forall r k, r < length (m_rows d) -> k < lv -> exists row, nth_error x r = Some row /\ nth_error row k = Some (default r k)).
Proof.
  intros w cs d e H Hd.
  assert (Hw : width_ok (m_cols d) (run_fits cs new_store)) by (rewrite Hd; apply fits_width; exact H).
  assert (HA : forall c, call_data c = d -> st_data (run_fits (cs ++ [c]) new_store) = Some (w, flat_map rows_of_call cs ++ m_rows d)).
  { intros c Ec. rewrite (fits_data w); [|destruct cs; discriminate|].
    - rewrite flat_map_app. cbn [flat_map]. rewrite app_nil_r. unfold rows_of_call at 2. rewrite Ec. reflexivity.
    - apply Forall_app. split; [exact H|]. constructor; [rewrite Ec; exact Hd | constructor]. }
  split.
  - intros b i c. split; [|split; [apply HA; reflexivity|]].
    + unfold c, run_fit. rewrite (append_ok d _ Hw). destruct b; [destruct i|]; eexists; reflexivity.
    + rewrite fits_snoc. unfold c, run_fit. rewrite (append_ok d _ Hw). destruct b; [destruct i|]; reflexivity.
  - intros lv default c. split; [|split; [apply HA; reflexivity|]].
    + unfold c, run_fit. rewrite (append_ok d _ Hw). reflexivity.
    + rewrite fits_snoc. unfold c, run_fit. rewrite (append_ok d _ Hw). eexists. split; [reflexivity|].
      intros r k Hr Hk. eexists. split; [apply nth_error_map_seq; exact Hr|]. apply (nth_error_map_seq (default r)). exact Hk.
Qed.
Print Assumptions C67_failed_fit_refuted.

(** Starting values for joint maximum likelihood are used only if they have a row for each respondent
    and a column for each latent variable; otherwise the call raises ValueError and the scores stay. *)
Theorem C67_joint_starting_values : forall s d lv n t default trained, width_ok (m_cols d) s ->
  let c := FitJoint d lv (Some (n, t)) default trained in
  ((length t <> length (m_rows d) \/ n <> lv) ->
     snd (run_fit c s) = Err ValueError /\ st_scores (fst (run_fit c s)) = st_scores s) /\
  (length t = length (m_rows d) -> n = lv ->
     (forall e, trained = Err e -> snd (run_fit c s) = Err e /\ st_scores (fst (run_fit c s)) = Some t) /\
     (forall g, trained = Ok g -> snd (run_fit c s) = Ok tt /\
        exists x, st_scores (fst (run_fit c s)) = Some x /\ length x = length t /\
          forall r row k v, nth_error t r = Some row -> nth_error row k = Some v ->
            exists row', nth_error x r = Some row' /\ nth_error row' k = Some (g r k v))).
Proof.
  intros s d lv n t default trained Hw c. unfold c, run_fit. rewrite (append_ok d s Hw). cbn [jml_start]. split.
  - intros H. destruct (Nat.eqb_spec (length t) (length (m_rows d))) as [E1|E1]; cbn [negb].
    + destruct (Nat.eqb_spec n lv) as [E2|E2]; [destruct H; contradiction|]. cbn [negb fst snd]. split; [reflexivity|].
      unfold append_data. reflexivity.
    + cbn [fst snd]. split; reflexivity.
  - intros E1 ->. rewrite (proj2 (Nat.eqb_eq _ _) E1), Nat.eqb_refl. cbn [negb]. split.
    + intros e ->. split; reflexivity.
    + intros g ->. split; [reflexivity|]. eexists. split; [reflexivity|]. unfold train_thetas. rewrite mapi_length. split; [reflexivity|].
      intros r row k v Hr Hk. exists (mapi (g r) row). split.
      * rewrite nth_error_mapi, Hr. reflexivity.
      * rewrite nth_error_mapi, Hk. reflexivity.
Qed.
Print Assumptions C67_joint_starting_values.
Example C67_joint_starting_values_nonvacuous :
  width_ok 1 new_store /\
  snd (run_fit (FitJoint (Mat 2 1 [[Some 1%Z]]) 2 (Some (1, [[0%R]])) (fun _ _ => 0%R) (Err RuntimeError)) new_store) = Err ValueError.
Proof. split; [exact I | reflexivity]. Qed.

(** Fits by marginal maximum likelihood store no scores. *)
Theorem C67_marginal : forall cs s, (forall c, In c cs -> ~ stores_scores c) -> st_scores (run_fits cs s) = st_scores s.
Proof. exact marginal_scores. Qed.
Print Assumptions C67_marginal.

(** In every epoch joint maximum likelihood pairs each respondent's data with that respondent's scores,
    once, in order, in ceil(n / batch size) batches. *)
Theorem C67_joint_pairs : forall {A B} (da : A) (db : B) bs data thetas, 0 < bs -> length thetas = length data ->
  concat (joint_batches da db bs data thetas) = combine data thetas /\
  length (joint_batches da db bs data thetas) = ceil_div (length data) bs.
Proof. exact @joint_pairs. Qed.
Print Assumptions C67_joint_pairs.

Example C67_nonvacuous :
  let d1 := Mat 2 1 [[Some 1%Z]; [None]] in let d2 := Mat 2 1 [[Some 0%Z]] in
  let c1 := FitMarginal d1 1 (Err RuntimeError) in let c2 := FitEncoder d2 true (Ok (fun _ => [7%R])) (Ok (fun x => x)) in
  Forall (fun c => m_cols (call_data c) = 1) [c1; c2] /\ succeeds c2 /\ stores_scores c2 /\ flat_map rows_of_call [c1] <> [] /\
  run_fits [c1; c2] new_store = Store (Some (1, [[Some 1%Z]; [None]; [Some 0%Z]])) (Some [[7%R]]).
Proof. cbn. repeat split; try (eexists; reflexivity); repeat constructor. discriminate. Qed.
