(** Starting values pick the most likely training score. *)
From Coq Require Import Permutation.
From Verif Require Import Base BaseFacts RBase RFacts M_Data M_CV P_CV M_Logit M_Lik S_Lik P_Lik1 P_Lik2 P_Lik3 P_Lik5 M_Est S_Est P_Est1 P_Est3.
Local Open Scope R_scope.

Lemma fgt_logs a b : 0 <= a -> 0 <= b -> fgt (flog (Some a)) (flog (Some b)) = true <-> b < a.
Proof.
  intros Ha Hb. destruct (Req_dec a 0) as [-> |Ha0]; destruct (Req_dec b 0) as [-> |Hb0].
  - rewrite flog_zero. cbn. split; [discriminate|lra].
  - rewrite flog_zero, flog_pos by lra. cbn. split; [discriminate|lra].
  - rewrite flog_zero, flog_pos by lra. cbn. split; auto. lra.
  - rewrite !flog_pos by lra. cbn. destruct (Rlt_dec (ln b) (ln a)) as [H|H]; split; auto; try discriminate; intros.
    + apply ln_lt_inv; lra.
    + exfalso. apply H. apply ln_increasing; lra.
Qed.
Lemma argmax_from_spec {A} (a : A -> R) l : Forall (fun t => 0 <= a t) l -> forall i bi b, 0 <= b -> (bi < i)%nat ->
  let k := argmax_from i bi (flog (Some b)) (map (fun t => flog (Some (a t))) l) in
  (k = bi /\ forall t, In t l -> a t <= b) \/
  (exists t, nth_error l (k - i) = Some t /\ (i <= k < i + length l)%nat /\ b < a t /\ forall t', In t' l -> a t' <= a t).
Proof.
  induction 1 as [|t l Ht HF IH]; intros i bi b Hb Hbi k.
  - left. split; auto. intros ? [].
  - subst k. cbn [map argmax_from]. destruct (fgt (flog (Some (a t))) (flog (Some b))) eqn:E.
    + apply fgt_logs in E; auto. destruct (IH (S i) i (a t) Ht ltac:(lia)) as [[-> H]|(t' & H1 & H2 & H3 & H4)]; right.
      * exists t. rewrite Nat.sub_diag. cbn [nth_error length]. repeat split; auto; try lia. intros t' [<- |H']; [lra|auto].
      * exists t'. set (k := argmax_from _ _ _ _) in *. replace (k - i)%nat with (S (k - S i)) by lia. cbn [nth_error length].
        split; auto. split; [lia|]. split; [lra|]. intros t'' [<- |H']; [lra|auto].
    + assert (Hle : a t <= b). { destruct (Rle_lt_dec (a t) b); auto. apply fgt_logs in r; auto. congruence. }
      destruct (IH (S i) bi b Hb ltac:(lia)) as [[-> H]|(t' & H1 & H2 & H3 & H4)].
      * left. split; auto. intros t' [<- |H']; auto.
      * right. exists t'. set (k := argmax_from _ _ _ _) in *. replace (k - i)%nat with (S (k - S i)) by lia. cbn [nth_error length].
        split; auto. split; [lia|]. split; [auto|]. intros t'' [<- |H']; [lra|auto].
Qed.
Lemma fargmax_logs {A} (a : A -> R) l : l <> [] -> Forall (fun t => 0 <= a t) l ->
  exists b t, fargmax (map (fun t => flog (Some (a t))) l) = Ok b /\ nth_error l b = Some t /\ forall t', In t' l -> a t' <= a t.
Proof.
  intros Hne HF. destruct l as [|t l]; [congruence|]. inversion HF as [|? ? Ht HF']; subst. cbn [map fargmax].
  destruct (argmax_from_spec a l HF' 1%nat 0%nat (a t) Ht ltac:(lia)) as [[E H]|(t' & H1 & H2 & H3 & H4)].
  - exists 0%nat, t. split; [now rewrite E|]. split; auto. intros t' [<- |H']; [lra|auto].
  - eexists _, t'. split; [reflexivity|]. set (k := argmax_from _ _ _ _) in *. split.
    + replace k with (S (k - 1)) by lia. exact H1.
    + intros t'' [<- |H']; [lra|auto].
Qed.
Lemma map_repeat_interleave {A B} (f : A -> B) k l : map f (repeat_interleave k l) = repeat_interleave k (map f l).
Proof. induction l as [|a l IH]; cbn; auto. unfold repeat_interleave in *. cbn. rewrite map_app, IH. f_equal. apply map_repeat. Qed.
Lemma view_rows_flat {A} n (ls : list (list A)) w : length ls = n -> (0 < n)%nat -> (0 < w)%nat -> Forall (fun l => length l = w) ls ->
  view_rows n (concat ls) = Ok ls.
Proof.
  intros Hn H0 Hw HF. assert (Hl : length (concat ls) = (n * w)%nat).
  { subst n. clear -HF. induction HF as [|l ls E HF IH]; [reflexivity|]. cbn [concat length]. rewrite app_length, IH, E. lia. }
  rewrite (view_rows_rect n w) by auto. f_equal. rewrite <- (blocks_rect n w) by auto. now apply blocks_flat.
Qed.

Section Start.
  Variables (m : emodel) (p : list R -> nat -> nat -> R).
  Hypothesis (Hm : has_probabilities m p) (Hflat : flat_output m) (HI : (0 < em_items m)%nat).

  Lemma best_scores_most_likely thetas data : thetas <> [] -> data <> [] -> Forall (fun t => length t = em_lv m) thetas ->
    legal_data (em_cats m) data ->
    exists r, best_scores m thetas (Wide (em_items m) data) = Ok r /\ Forall2 (most_likely p thetas) data r.
  Proof.
    intros Hne Hnd HF Hd. set (I := em_items m) in *. set (N := length data). set (T := length thetas).
    assert (HN : (0 < N)%nat) by (unfold N; destruct data; [congruence|cbn; lia]).
    assert (HT : (0 < T)%nat) by (unfold T; destruct thetas; [congruence|cbn; lia]).
    destruct (respondent_ll m p Hm HI (tile N thetas) (repeat_interleave T data)) as (out & cells & E1 & E2 & E3 & E4).
    { now apply tile_Forall. }
    { rewrite repeat_interleave_length, tile_length. reflexivity. }
    { now apply repeat_interleave_Forall. }
    fold I in E2, E3, E4. destruct Hflat as (c & f & Hf).
    assert (Eo : out = T2 (Wide c (tile N (map f thetas)))).
    { rewrite Hf in E1 by now apply tile_Forall. rewrite map_tile in E1. congruence. }
    unfold best_scores. cbn [w_rows w_cols]. fold N T. rewrite (Hf thetas HF). cbn [bind repeat_2d w_cols w_rows].
    rewrite <- Eo. unfold mask_of in *. cbn [w_rows w_cols] in *. rewrite <- map_repeat_interleave, E2. cbn [bind cells_of].
    rewrite repeat_interleave_length in E3. fold N in E3. rewrite Eo. cbn [tensor_rows w_rows]. rewrite tile_length, map_length. fold T.
    rewrite (view_rows_rect (N * T) I cells) by (auto; nia). cbn [bind].
    rewrite <- (blocks_rect (N * T) I) by auto. rewrite E4.
    pose proof (tile_interleave_zip (fun t r => flog (Some (likelihood p t r))) thetas data) as Et. fold N T in Et. rewrite Et.
    rewrite (view_rows_flat N _ T); auto; [|now rewrite map_length| ].
    2:{ apply Forall_forall. intros l Hl. apply in_map_iff in Hl as [r [<- _]]. apply map_length. }
    cbn [bind].
    assert (Hpos : forall row, In row data -> Forall (fun t => 0 <= likelihood p t row) thetas).
    { intros row Hrow. apply Forall_forall. intros t Ht. unfold legal_data in Hd. rewrite Forall_forall in Hd, HF. eapply likelihood_nonneg; eauto. }
    assert (Hbest : forall ds, incl ds data -> exists bs, mapM fargmax (map (fun r => map (fun t => flog (Some (likelihood p t r))) thetas) ds) = Ok bs /\
      Forall2 (fun row b => exists t, nth_error thetas b = Some t /\ most_likely p thetas row t) ds bs).
    { induction ds as [|row ds IH]; intro Hin.
      - exists []. split; [reflexivity|constructor].
      - destruct IH as (bs & Eb & HB); [intros r Hr; apply Hin; now right|].
        destruct (fargmax_logs (fun t => likelihood p t row) thetas Hne (Hpos row (Hin _ (or_introl eq_refl)))) as (b & t & Ea & En & Hmax).
        exists (b :: bs). cbn [map mapM]. rewrite Ea. cbn [bind]. rewrite Eb. cbn [bind]. split; auto.
        constructor; auto. exists t. split; auto. split; auto. eapply nth_error_In; eauto. }
    destruct (Hbest data (incl_refl _)) as (bs & -> & HB). cbn [bind].
    rewrite (mapiM_total _ (fun n b => nth b thetas [])).
    2:{ intros n b Hb. destruct (some_row data n) as [row Er].
        { rewrite (Forall2_len _ _ _ HB). apply nth_error_Some. congruence. }
        destruct (Forall2_nth_error _ _ _ HB n row b Er Hb) as (t & Ht & _).
        assert (b < T)%nat by (apply nth_error_Some; congruence).
        unfold T. rewrite nth_error_tile; auto.
        - rewrite Ht. f_equal. symmetry. now apply nth_error_nth.
        - apply nth_error_Some. congruence. }
    eexists. split; [reflexivity|]. clear -HB. unfold mapi. generalize 0%nat.
    induction HB as [|row b ds bs (t & Ht & Hml) HB IH]; intro n; cbn [mapi_from]; constructor; auto.
    now rewrite (nth_error_nth _ _ [] Ht).
  Qed.

  Lemma initial_small perm training data : training <> [] -> Forall (fun t => length t = em_lv m) training -> legal_data (em_cats m) data ->
    (Z.of_nat (length data) * Z.of_nat (length training) <= 1000000)%Z ->
    Forall2 (most_likely p training) data (initial_theta perm m training (Wide (em_items m) data)).
  Proof.
    intros Hne HF Hd Hsz. unfold initial_theta. cbn [w_rows].
    destruct (Z.ltb_spec 1000000 (Z.of_nat (length data) * Z.of_nat (length training))); [lia|].
    destruct data as [|row data].
    - cbn [length repeat]. destruct (best_scores m training (Wide (em_items m) [])) eqn:E; [|constructor].
      exfalso. unfold best_scores in E. cbn [w_rows length w_cols] in E. destruct Hflat as (c & f & Hf). rewrite (Hf training HF) in E.
      cbn [bind repeat_2d] in E. destruct (em_ll _ _ _ _ _) as [o|]; [|discriminate]. cbn [bind] in E.
      destruct (cells_of o); discriminate.
    - destruct (best_scores_most_likely training (row :: data) Hne ltac:(discriminate) HF Hd) as (r & -> & H2). exact H2.
  Qed.
  Lemma initial_sampled perm training data : Permutation perm (seq 0 (length training)) -> Forall (fun t => length t = em_lv m) training -> legal_data (em_cats m) data ->
    (1000000 < Z.of_nat (length data) * Z.of_nat (length training))%Z -> (Z.of_nat (length data) <= 500000)%Z ->
    exists candidates, incl candidates training /\ Z.of_nat (length candidates) = Z.min (1000000 / Z.of_nat (length data)) (Z.of_nat (length training)) /\
      Forall2 (most_likely p candidates) data (initial_theta perm m training (Wide (em_items m) data)).
  Proof.
    intros Hperm HF Hd Hbig Hsmall. unfold initial_theta. cbn [w_rows].
    destruct (Z.ltb_spec 1000000 (Z.of_nat (length data) * Z.of_nat (length training))); [|lia].
    destruct (Z.ltb_spec 500000 (Z.of_nat (length data))); [lia|].
    set (k := Z.to_nat (1000000 / Z.of_nat (length data))).
    assert (Hk : (Z.of_nat k = 1000000 / Z.of_nat (length data))%Z) by (unfold k; apply Z2Nat.id; apply Z.div_pos; lia).
    assert (Hk2 : (2 <= Z.of_nat k)%Z) by (rewrite Hk; apply Z.div_le_lower_bound; lia).
    assert (Hidx : forall l, (forall i, In i l -> (i < length training)%nat) -> length (index_rows l training) = length l /\ incl (index_rows l training) training).
    { induction l as [|i l IH]; intro Hl; [split; [reflexivity|intros ? []]|].
      destruct IH as [H1 H2]; [intros; apply Hl; now right|]. unfold index_rows in *. cbn [flat_map].
      destruct (nth_error training i) as [x|] eqn:Ei.
      - cbn [app length]. split; [lia|]. intros y [<- |Hy]; [eapply nth_error_In; eauto|auto].
      - apply nth_error_None in Ei. specialize (Hl i (or_introl eq_refl)). lia. }
    destruct (Hidx (firstn k perm)) as [H1 H2].
    { intros i Hi. assert (Hp : In i perm) by (rewrite <- (firstn_skipn k perm); apply in_or_app; now left).
      apply (Permutation_in i Hperm) in Hp. apply in_seq in Hp. lia. }
    exists (index_rows (firstn k perm) training). split; auto. rewrite H1, firstn_length, (Permutation_length Hperm), seq_length.
    split; [lia|].
    assert (Hc : index_rows (firstn k perm) training <> []).
    { intro E. rewrite E in H1. cbn in H1. rewrite firstn_length, (Permutation_length Hperm), seq_length in H1. nia. }
    assert (Hdn : data <> []) by (intro E; rewrite E in Hbig; cbn [length] in Hbig; lia).
    destruct (best_scores_most_likely (index_rows (firstn k perm) training) data Hc Hdn) as (r & -> & HH); auto.
    apply Forall_forall. intros t Ht. rewrite Forall_forall in HF. auto.
  Qed.
End Start.
