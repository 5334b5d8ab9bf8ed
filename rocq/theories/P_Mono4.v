(** Proofs: the monotone neural network model. *)
From Verif Require Import Base BaseFacts RBase RFacts M_Logit S_Logit P_Logit P_Logit2 P_Logit4 M_Mono S_Mono P_Mono1 P_Mono2 P_Mono3.
Local Open Scope R_scope.

Lemma Forall2_len {A B} {P : A -> B -> Prop} {l1 l2} : Forall2 P l1 l2 -> length l1 = length l2.
Proof. induction 1; cbn; auto. Qed.
Definition zero_rows (l : spl) : Prop :=
  forall o, nth o (sl_zero_out l) false = true -> forall i, nth i (nth o (sl_free l) []) false = false.
Definition ngroups (cats : list nat) (sep : bool) : nat := if sep then length cats else (length cats * list_max cats)%nat.
Fixpoint layers_ok (cats : list nat) (sep : bool) (rel : list bool) (prev : nat) (ls : list spl) (hs : list nat) : Prop :=
  match ls, hs with
  | [], [] => True
  | l :: ls', h :: hs' =>
      spl_wf l /\ sl_in l = prev /\ sl_out l = (ngroups cats sep * h)%nat /\
      sl_zero_out l = layer_zero_out cats sep rel h /\ zero_rows l /\
      layers_ok cats sep rel (ngroups cats sep * h) ls' hs'
  | _, _ => False
  end.

Lemma layer_zero_out_length cats sep rel h : length rel = length cats ->
  length (layer_zero_out cats sep rel h) = (ngroups cats sep * h)%nat.
Proof.
  intro Hr. unfold layer_zero_out, ngroups. destruct sep.
  - rewrite repeat_interleave_length, map_length. lia.
  - rewrite zip_with_length, !repeat_interleave_length, missing_category_length, map_length, Hr. lia.
Qed.
Lemma spl_init_zero_rows n_in n_out sin sout zin zo sp l :
  spl_init n_in n_out sin sout zin (Some zo) sp = Ok l -> length zo = n_out -> (forall z, zin = Some z -> length z = n_in) ->
  (0 < n_in)%nat -> zero_rows l.
Proof.
  intros H Hz Hzi Hin o Ho i.
  destruct (spl_init_ok _ _ _ _ _ _ _ _ H) as (gs & H1 & H2 & H3 & H4 & H5 & _).
  assert (Hlt : (o < n_out)%nat).
  { destruct (Nat.lt_ge_cases o n_out); auto. rewrite nth_overflow in Ho by (rewrite H4; lia). discriminate. }
  destruct (Nat.lt_ge_cases i n_in) as [Hi|Hi].
  - rewrite (spl_free_at _ _ _ _ _ _ _ _ o i H Hzi) by (auto; intros z Hz'; injection Hz' as <-; auto).
    now rewrite Ho.
  - apply nth_overflow. rewrite H4 in H5.
    pose proof (nth_error_layer_row n_in n_out gs (match zin with Some z => z | None => repeat false n_in end) zo o Hz Hlt) as E.
    rewrite <- H5 in E. rewrite (nth_error_nth _ _ [] E).
    unfold set_mask. rewrite zip_with_length.
    assert (length (match zin with Some z => z | None => repeat false n_in end) = n_in) by (destruct zin; auto using repeat_length). lia.
Qed.

Lemma hidden_layers_ok cats sep rel prev zprev hs ls : length rel = length cats -> (0 < ngroups cats sep)%nat -> (0 < prev)%nat ->
  length zprev = (ngroups cats sep * prev)%nat -> Forall (fun h => (0 < h)%nat) hs ->
  mnn_hidden_layers cats sep rel prev zprev hs = Ok ls -> layers_ok cats sep rel (ngroups cats sep * prev) ls hs.
Proof.
  intros Hr HG. revert prev zprev ls. induction hs as [|h hs IH]; intros prev zprev ls Hp Hz Hh H.
  - injection H as <-. exact I.
  - cbn [mnn_hidden_layers] in H. fold (ngroups cats sep) in H.
    destruct (spl_init (prev * ngroups cats sep) (ngroups cats sep * h) (Some (repeat prev (ngroups cats sep)))
           (Some (repeat h (ngroups cats sep))) (Some zprev) (Some (layer_zero_out cats sep rel h)) true) as [l|] eqn:E; [|discriminate].
    cbn [bind] in H. destruct (mnn_hidden_layers cats sep rel h (layer_zero_out cats sep rel h) hs) as [ls'|] eqn:E2; [|discriminate].
    injection H as <-. inversion Hh as [|? ? Hh1 Hh2]; subst.
    assert (Hzl := layer_zero_out_length cats sep rel h Hr).
    assert (Hin : (0 < prev * ngroups cats sep)%nat) by nia.
    destruct (spl_init_wf _ _ _ _ _ _ _ E Hin) as (W & W1 & W2).
    { intros z Hz'. injection Hz' as <-. lia. }
    { intros z Hz'. injection Hz' as <-. lia. }
    destruct (spl_init_ok _ _ _ _ _ _ _ _ E) as (gs & _ & _ & _ & H4 & _).
    cbn [layers_ok]. split; [auto|]. split; [lia|]. split; [lia|]. split; [auto|]. split.
    + eapply spl_init_zero_rows; eauto. intros z Hz'. injection Hz' as <-. lia.
    + eapply IH; eauto.
Qed.
Lemma mnn_layers_ok cats sep rel hs ls : length rel = length cats -> (0 < ngroups cats sep)%nat ->
  Forall (fun h => (0 < h)%nat) hs -> mnn_layers cats sep rel hs = Ok ls -> layers_ok cats sep rel 1 ls hs /\ hs <> [].
Proof.
  intros Hr HG Hh H. destruct hs as [|h hs]; [discriminate|]. split; [|discriminate]. cbn [mnn_layers] in H. fold (ngroups cats sep) in H.
  destruct (spl_init 1 (ngroups cats sep * h) None None None (Some (layer_zero_out cats sep rel h)) true) as [l|] eqn:E; [|discriminate].
  cbn [bind] in H. destruct (mnn_hidden_layers cats sep rel h (layer_zero_out cats sep rel h) hs) as [ls'|] eqn:E2; [|discriminate].
  injection H as <-. inversion Hh as [|? ? Hh1 Hh2]; subst.
  assert (Hzl := layer_zero_out_length cats sep rel h Hr).
  destruct (spl_init_wf _ _ _ _ _ _ _ E ltac:(lia)) as (W & W1 & W2).
  { discriminate. } { intros z Hz'. injection Hz' as <-. lia. }
  destruct (spl_init_ok _ _ _ _ _ _ _ _ E) as (gs & _ & _ & _ & H4 & _).
  cbn [layers_ok]. split; [auto|]. split; [auto|]. split; [auto|]. split; [auto|]. split.
  - eapply spl_init_zero_rows; eauto. discriminate.
  - eapply hidden_layers_ok; eauto.
Qed.
Lemma same_layer_ok l l' : same_layer l l' -> (spl_wf l -> spl_wf l') /\ (zero_rows l -> zero_rows l').
Proof.
  intros (H1 & H2 & H3 & H4 & H5 & H6 & H7). split.
  - unfold spl_wf. rewrite H1, H2, H3, H4, H5, H6, H7. auto.
  - unfold zero_rows. now rewrite H4, H5.
Qed.
Lemma same_layers_ok cats sep rel prev ls ls' hs : Forall2 same_layer ls ls' ->
  layers_ok cats sep rel prev ls hs -> layers_ok cats sep rel prev ls' hs.
Proof.
  intro H. revert prev hs. induction H as [|l l' ls ls' Hl _ IH]; intros prev [|h hs]; cbn [layers_ok]; auto.
  intros (W & W1 & W2 & W3 & W4 & W5). destruct (same_layer_ok _ _ Hl) as [S1 S2].
  destruct Hl as (E1 & E2 & E3 & E4 & E5 & E6 & E7). rewrite E1, E2, E4. auto 7.
Qed.

(** Invariant of the model: established by the constructor, kept by parameter updates. *)
Definition mnn_ok (m : mnn) : Prop :=
  n_cats m <> [] /\ Forall (fun K => (1 <= K)%nat) (n_cats m) /\ length (n_rel m) = n_items m /\
  Forall (fun h => (0 < h)%nat) (n_hidden m) /\ n_hidden m <> [] /\
  Forall (fun h => (h mod period (n_bounded m) = 0)%nat) (n_hidden m) /\
  length (n_layers m) = n_lv m /\ length (n_neg m) = n_lv m /\
  (forall d, (d < n_lv m)%nat ->
     layers_ok (n_cats m) (n_sep_items m) (column false d (n_rel m)) 1 (nth d (n_layers m) []) (n_hidden m) /\
     length (nth d (n_neg m) []) = ctrue (column false d (n_rel m))) /\
  length (n_bias m) = list_sum (n_cats m).

Lemma list_max_pos cats : cats <> [] -> Forall (fun K => (1 <= K)%nat) cats -> (1 <= list_max cats)%nat.
Proof.
  intros H HF. destruct cats as [|K cats]; [congruence|]. inversion HF; subst.
  pose proof (list_max_bound (K :: cats) K ltac:(now left)). lia.
Qed.
Lemma ngroups_pos cats sep : cats <> [] -> Forall (fun K => (1 <= K)%nat) cats -> (0 < ngroups cats sep)%nat.
Proof.
  intros H HF. pose proof (list_max_pos _ H HF). assert (0 < length cats)%nat by (destruct cats; [congruence|cbn; lia]).
  unfold ngroups. destruct sep; [auto|nia].
Qed.
Lemma mnn_init_ok cats lv rel hidden key sep neg bounded m :
  mnn_init cats lv rel hidden key sep neg bounded = Ok m -> cats <> [] -> Forall (fun K => (1 <= K)%nat) cats ->
  (0 < lv)%nat -> (forall h, hidden = Some h -> Forall (fun x => (0 < x)%nat) h) ->
  mnn_ok m /\ n_cats m = cats /\ n_lv m = lv /\ n_key m = key /\ n_sep_items m = sep /\ n_negative m = neg /\ n_bounded m = bounded.
Proof.
  intros H Hc HK Hlv Hh. unfold mnn_init in H.
  destruct (relationships (length cats) lv rel) as [r|] eqn:Er; [|discriminate]. cbn [bind] in H.
  destruct (relationships_ok _ _ _ _ Hlv Er) as [R1 R2].
  set (hid := match hidden with None => _ | Some _ => _ end) in H.
  destruct hid as [hs|] eqn:Eh; [|discriminate]. cbn [bind] in H.
  assert (Hhs : Forall (fun x => (0 < x)%nat) hs /\ Forall (fun h => (h mod period bounded = 0)%nat) hs).
  { unfold hid in Eh. destruct hidden as [h|].
    - destruct (forallb _ h) eqn:Ef; [|discriminate]. injection Eh as <-. split; [now apply Hh|].
      apply Forall_forall. intros x Hx. rewrite forallb_forall in Ef. specialize (Ef x Hx). apply Nat.eqb_eq in Ef. exact Ef.
    - injection Eh as <-. destruct bounded; split; repeat constructor. }
  destruct Hhs as [Hp Hm].
  destruct (mapM (fun d => mnn_layers cats sep (column false d r) hs) (seq 0 lv)) as [layers|] eqn:El; [|discriminate].
  cbn [bind] in H. injection H as <-.
  apply mapM_Ok in El.
  assert (Hll : length layers = lv) by (rewrite <- (Forall2_len El); apply seq_length).
  assert (Hnth : forall d, (d < lv)%nat -> mnn_layers cats sep (column false d r) hs = Ok (nth d layers [])).
  { intros d Hd. assert (Q : forall (l1 : list nat) l2 (P : nat -> list spl -> Prop), Forall2 P l1 l2 ->
      forall k, (k < length l1)%nat -> P (nth k l1 O) (nth k l2 [])).
    { induction 1; intros [|k] Hk; cbn in *; try lia; auto. apply IHForall2. lia. }
    pose proof (Q _ _ _ El d ltac:(rewrite seq_length; auto)) as E. now rewrite seq_nth in E by auto. }
  split; [|cbn; auto 8].
  unfold mnn_ok. cbn.
  pose proof (ngroups_pos cats sep Hc HK) as HG.
  assert (Hcol : forall d, length (column false d r) = length cats) by (intro d; unfold column; rewrite map_length; auto).
  split; [auto|]. split; [auto|]. split; [exact R1|]. split; [auto|]. split.
  { destruct (mnn_layers_ok cats sep (column false 0 r) hs _ (Hcol O) HG Hp (Hnth O ltac:(lia))) as [_ W]. exact W. }
  split; [auto|]. split; [auto|]. split; [now rewrite map_length, seq_length|]. split.
  - intros d Hd. split.
    { exact (proj1 (mnn_layers_ok cats sep (column false d r) hs _ (Hcol d) HG Hp (Hnth d Hd))). }
    etransitivity; [apply (f_equal (@length R)), nth_map_seq; exact Hd|]. apply repeat_length.
  - apply repeat_length.
Qed.
Lemma Forall2_nth {A B} (P : A -> B -> Prop) l1 l2 d1 d2 k : Forall2 P l1 l2 -> (k < length l1)%nat -> P (nth k l1 d1) (nth k l2 d2).
Proof. intro H. revert k. induction H; intros [|k] Hk; cbn in *; try lia; auto. apply IHForall2. lia. Qed.
Lemma same_mnn_ok m m' : same_mnn m m' -> mnn_ok m -> mnn_ok m'.
Proof.
  intros (E1 & E2 & E3 & E4 & E5 & E6 & E7 & E8 & E9 & E10 & E11) (H1 & H2 & H3 & H4 & H4b & H5 & H6 & H7 & H8 & H9).
  unfold mnn_ok, n_items. rewrite E1, E2, E3, E4, E5, E7, E9.
  split; [auto|]. split; [auto|]. split; [auto|]. split; [auto|]. split; [auto|]. split; [auto|].
  split; [rewrite <- (Forall2_len E10); auto|]. split; [rewrite <- (Forall2_len E11); auto|]. split; [|auto].
  intros d Hd. destruct (H8 d Hd) as [W1 W2]. split.
  - refine (same_layers_ok _ _ _ _ _ _ _ _ W1). apply Forall2_nth; [auto|lia].
  - rewrite <- W2. apply (Forall2_nth (fun a b : list R => length b = length a)); [auto|lia].
Qed.

(** ** The stack of one latent variable *)
Lemma layers_run bounded cats sep rel ls hs prev x :
  layers_ok cats sep rel prev ls hs -> Forall (fun h => (h mod period bounded = 0)%nat) hs -> length x = prev -> hs <> [] ->
  exists y, run_layers bounded ls x = Ok y /\ length y = (ngroups cats sep * last hs O)%nat /\
    (forall o, nth o (layer_zero_out cats sep rel (last hs O)) false = true -> nth o y 0 = 0) /\
    forall x', le_vec x x' -> exists y', run_layers bounded ls x' = Ok y' /\ le_vec y y'.
Proof.
  revert hs prev x. induction ls as [|l ls IH]; intros [|h hs] prev x; cbn [layers_ok]; try contradiction.
  intros (W & W1 & W2 & W3 & W4 & W5) Hm Hx _. inversion Hm as [|? ? Hm1 Hm2]; subst.
  assert (Hlen : length (spl_forward l x) = (ngroups cats sep * h)%nat) by (rewrite spl_forward_length; auto).
  assert (Hmod : (length (spl_forward l x) mod period bounded = 0)%nat).
  { rewrite Hlen, Nat.mul_mod, Hm1, Nat.mul_0_r by (unfold period; destruct bounded; lia). apply Nat.mod_0_l. unfold period; destruct bounded; lia. }
  destruct (split_activation_spec bounded _ Hmod) as (z & Hz & Hzl & Hzn).
  assert (Hmono : forall x', le_vec x x' -> exists z', split_activation bounded (spl_forward l x') = Ok z' /\ le_vec z z').
  { intros x' Hle. pose proof (spl_forward_monotone l x x' W ltac:(lia) Hle) as Hf.
    destruct (split_activation_monotone bounded _ _ Hmod Hf) as (a & b & Ha & Hb & _ & Hab). rewrite Hz in Ha. injection Ha as <-. eauto. }
  destruct hs as [|h2 hs].
  - destruct ls as [|l2 ls]; cbn [layers_ok] in W5; [|contradiction].
    exists z. cbn [run_layers last]. rewrite Hz. cbn [bind]. split; [reflexivity|]. split; [lia|]. split.
    + intros o Ho. rewrite <- W3 in Ho.
      assert (Hlt : (o < sl_out l)%nat).
      { destruct (Nat.lt_ge_cases o (sl_out l)); auto. destruct W as (_ & _ & _ & _ & _ & Wz & _).
        rewrite nth_overflow in Ho by lia. discriminate. }
      rewrite Hzn by lia. rewrite (nth_error_nth _ _ 0 (zero_unit l x o W ltac:(lia) Hlt Ho (W4 o Ho))). apply act_0.
    + intros x' Hle. destruct (Hmono x' Hle) as (z' & -> & Hzz). cbn [bind]. eauto.
  - destruct (IH (h2 :: hs) _ z W5 Hm2 ltac:(lia) ltac:(discriminate)) as (y & Hy & Hyl & Hy0 & Hym).
    exists y. cbn [run_layers]. rewrite Hz. cbn [bind]. split; [exact Hy|]. split; [exact Hyl|]. split; [exact Hy0|].
    intros x' Hle. destruct (Hmono x' Hle) as (z' & -> & Hzz). cbn [bind]. now apply Hym.
Qed.

Lemma block_sums h n y : (0 < h)%nat -> length y = (n * h)%nat ->
  map rsum (blocks h y) = map (fun p => sumn h (fun q => nth (p * h + q) y 0)) (seq 0 n).
Proof.
  intros Hh Hy. apply nth_error_ext. intro p. rewrite nth_error_map, nth_error_blocks by auto.
  destruct (Nat.lt_ge_cases p n) as [Hp|Hp].
  - rewrite nth_error_map_seq by auto. destruct (Nat.ltb_spec (p * h) (length y)) as [_|Hc]; [|nia].
    cbn [option_map]. f_equal. apply rsum_index.
    + rewrite firstn_length, skipn_length. nia.
    + intros k Hk. rewrite nth_error_firstn_lt, nth_error_skipn_add by auto. apply nth_error_nth_lt. nia.
  - rewrite (proj2 (nth_error_None (map _ (seq 0 n)) p)) by (rewrite map_length, seq_length; auto).
    destruct (Nat.ltb_spec (p * h) (length y)) as [Hc|_]; [nia|reflexivity].
Qed.

(** Number of true entries before position i*k+j of a repeated mask. *)
Lemma ctrue_repeat b k : ctrue (repeat b k) = if b then k else 0%nat.
Proof. induction k as [|k IH]; cbn [repeat]; [destruct b; reflexivity|]. rewrite ctrue_cons, IH. destruct b; reflexivity. Qed.
Lemma ctrue_repeat_interleave k l : ctrue (repeat_interleave k l) = (ctrue l * k)%nat.
Proof.
  induction l as [|b l IH]; [reflexivity|]. unfold repeat_interleave in *. cbn [flat_map].
  rewrite ctrue_app, ctrue_cons, IH, ctrue_repeat. destruct b; lia.
Qed.
Lemma ctrue_firstn_interleave k l i j b : nth_error l i = Some b -> (j < k)%nat ->
  ctrue (firstn (i * k + j) (repeat_interleave k l)) = (ctrue (firstn i l) * k + if b then j else 0)%nat.
Proof.
  revert i. induction l as [|b0 l IH]; intros i Hi Hj; [destruct i; discriminate|].
  unfold repeat_interleave in *. cbn [flat_map]. destruct i as [|i]; cbn [nth_error] in Hi.
  - injection Hi as <-. rewrite firstn_app, repeat_length. replace (0 * k + j - k)%nat with O by lia.
    rewrite firstn_O, app_nil_r. cbn [firstn]. replace (0 * k + j)%nat with j by lia.
    assert (firstn j (repeat b0 k) = repeat b0 j) as ->.
    { replace k with (j + (k - j))%nat by lia. rewrite repeat_app, firstn_app, repeat_length, Nat.sub_diag, firstn_O, app_nil_r.
      rewrite <- (repeat_length b0 j) at 1. apply firstn_all. }
    rewrite ctrue_repeat. destruct b0; cbn; lia.
  - rewrite firstn_app, repeat_length. replace (S i * k + j - k)%nat with (i * k + j)%nat by lia.
    rewrite firstn_all2 by (rewrite repeat_length; lia). rewrite ctrue_app, ctrue_repeat, (IH i Hi Hj).
    cbn [firstn]. rewrite ctrue_cons. destruct b0; lia.
Qed.
Lemma negation_weight_nth rel ipi wp i j : length wp = ctrue rel -> (i < length rel)%nat -> (j < ipi)%nat ->
  nth_error (negation_weight rel ipi wp) (i * ipi + j) =
  Some (if nth i rel false then nth (ctrue (firstn i rel)) wp 0 else 0).
Proof.
  intros Hw Hi Hj. unfold negation_weight. pose proof (nth_error_nth_lt rel i false Hi) as Hn.
  rewrite (nth_error_mask_scatter _ _ _ _ (nth i rel false)).
  - destruct (nth i rel false) eqn:E.
    + rewrite (ctrue_firstn_interleave ipi rel i j true) by auto. rewrite nth_error_repeat_interleave by auto.
      apply nth_error_nth_lt. rewrite Hw. apply ctrue_firstn_lt. congruence.
    + apply nth_error_repeat_lt. nia.
  - rewrite repeat_interleave_length, repeat_length. reflexivity.
  - rewrite ctrue_repeat_interleave, repeat_interleave_length. nia.
  - now rewrite nth_error_repeat_interleave.
Qed.
Lemma all_item_weights_nth rel wp i : length wp = ctrue rel -> (i < length rel)%nat ->
  nth_error (all_item_weights rel wp) i = Some (if nth i rel false then nth (ctrue (firstn i rel)) wp 0 else 0).
Proof.
  intros Hw Hi. unfold all_item_weights. rewrite (nth_error_mask_scatter _ _ _ i (nth i rel false)).
  - destruct (nth i rel false) eqn:E.
    + apply nth_error_nth_lt. rewrite Hw. apply ctrue_firstn_lt. rewrite (nth_error_nth_lt rel i false) by auto. congruence.
    + now apply nth_error_repeat_lt.
  - now rewrite repeat_length.
  - lia.
  - now apply nth_error_nth_lt.
Qed.

Lemma same_mnn_refl m : same_mnn m m.
Proof.
  assert (R : forall A (P : A -> A -> Prop) l, (forall x, P x x) -> Forall2 P l l) by (intros A P l H; induction l; constructor; auto).
  unfold same_mnn. repeat split; try reflexivity; apply R; [|reflexivity]. intro ls. apply R. intro l. unfold same_layer. repeat split.
Qed.
