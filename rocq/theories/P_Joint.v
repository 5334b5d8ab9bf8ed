(** A mix whose parts have plain output: splitting and adding up. *)
From Coq Require Import Lra.
From Verif Require Import Base BaseFacts RBase RFacts M_Data M_Logit M_Lik M_Est M_Opt M_Jml S_Logit S_Lik S_Est S_Joint P_Logit P_Logit3 P_Lik1 P_Lik2 P_Lik3 P_Lik4.
Local Open Scope R_scope.

Section Flat.
  Variables (thetas : list (list R)) (subs : list sub) (ws : list (wide ext)).
  Let N := length thetas.
  Hypothesis Hne : subs <> [].
  Hypothesis Hlw : length ws = length subs.
  Hypothesis Hsub : forall k s w, nth_error subs k = Some s -> nth_error ws k = Some w ->
    flat_part thetas s w.
  Let items := map sb_items subs.

  Lemma f_pick k s : nth_error subs k = Some s -> exists w, nth_error ws k = Some w /\ flat_part thetas s w.
  Proof.
    intro H. assert (k < length subs)%nat by (apply nth_error_Some; congruence).
    destruct (nth_error ws k) as [w|] eqn:Ew; [|apply nth_error_None in Ew; lia].
    exists w. split; auto. eapply Hsub; eauto.
  Qed.
  Lemma f_pick_w k w : nth_error ws k = Some w -> exists s, nth_error subs k = Some s /\ flat_part thetas s w.
  Proof.
    intro H. assert (k < length subs)%nat by (rewrite <- Hlw; apply nth_error_Some; congruence).
    destruct (nth_error subs k) as [s|] eqn:Es; [|apply nth_error_None in Es; lia].
    exists s. split; auto. eapply Hsub; eauto.
  Qed.
  Lemma f_forwards : map (fun s => sb_forward s thetas) subs = map T2 ws.
  Proof.
    apply nth_error_ext; intro k. rewrite !nth_error_map. destruct (nth_error subs k) as [s|] eqn:E; cbn [option_map].
    - destruct (f_pick k s E) as (w & Ew & H). rewrite Ew. cbn [option_map]. f_equal. apply H.
    - symmetry. apply nth_error_None in E. replace (nth_error ws k) with (@None (wide ext)); auto.
      symmetry. apply nth_error_None. lia.
  Qed.
  Lemma f_sizes_ws : map w_cols ws = mix_sizes subs.
  Proof.
    apply nth_error_ext; intro k. unfold mix_sizes. rewrite !nth_error_map. destruct (nth_error subs k) as [s|] eqn:E; cbn [option_map].
    - destruct (f_pick k s E) as (w & Ew & H). rewrite Ew. cbn [option_map]. f_equal. apply H.
    - apply nth_error_None in E. replace (nth_error ws k) with (@None (wide ext)); auto.
      symmetry. apply nth_error_None. lia.
  Qed.
  Lemma f_ws_rect k w : nth_error ws k = Some w -> rect N (w_cols w) (w_rows w).
  Proof.
    intro E. destruct (f_pick_w k w E) as (s & _ & H). destruct H as (_ & Hc & Hr). unfold N. now rewrite Hc.
  Qed.
  Definition f_mix_rows : list (list ext) :=
    match ws with [] => [] | w :: rest => fold_left glue (map w_rows rest) (w_rows w) end.
  Lemma f_ws_cons : exists w rest, ws = w :: rest.
  Proof.
    assert (H : length ws <> O) by (rewrite Hlw; intro E; apply Hne; now apply length_zero_iff_nil).
    revert H. clear. destruct ws as [|w rest]; cbn; [lia|eauto].
  Qed.
  Lemma f_mix_rows_eq w rest : ws = w :: rest -> f_mix_rows = fold_left glue (map w_rows rest) (w_rows w).
  Proof. unfold f_mix_rows. now intros ->. Qed.
  Lemma f_mix_forward_eq : mix_forward subs thetas = Ok (T2 (Wide (list_sum (mix_sizes subs)) f_mix_rows)).
  Proof.
    unfold mix_forward. rewrite f_forwards, cat_T2. unfold cat2. destruct f_ws_cons as (w & rest & Ews).
    rewrite (f_mix_rows_eq w rest Ews).
    assert (Hf : forallb (fun v => same_rows (length (w_rows w)) (w_rows v)) rest = true).
    { apply forallb_forall. intros v Hv. apply In_nth_error in Hv as [k Hk]. unfold same_rows. apply Nat.eqb_eq.
      destruct (f_ws_rect O w) as [H1 _]; [now rewrite Ews|].
      destruct (f_ws_rect (S k) v) as [H2 _]; [now rewrite Ews|]. lia. }
    rewrite <- f_sizes_ws, Ews, Hf. reflexivity.
  Qed.
  Lemma f_mix_pieces k w : nth_error ws k = Some w ->
    columns (offset (mix_sizes subs) k) (w_cols w) f_mix_rows = w_rows w.
  Proof.
    intro Hk. destruct f_ws_cons as (w0 & rest & Ews). rewrite (f_mix_rows_eq w0 rest Ews), <- f_sizes_ws.
    assert (Hall : forall i l, nth_error (w_rows w0 :: map w_rows rest) i = Some l ->
       exists w, nth_error (map w_cols ws) i = Some w /\ rect N w l).
    { intros i l Hi. change (w_rows w0 :: map w_rows rest) with (map w_rows (w0 :: rest)) in Hi. rewrite <- Ews in Hi.
      rewrite nth_error_map in Hi. destruct (nth_error ws i) as [v|] eqn:Ev; [|discriminate]. injection Hi as <-.
      exists (w_cols v). rewrite nth_error_map, Ev. split; [reflexivity|]. now apply (f_ws_rect i). }
    assert (Hkr : nth_error (w_rows w0 :: map w_rows rest) k = Some (w_rows w)).
    { change (w_rows w0 :: map w_rows rest) with (map w_rows (w0 :: rest)). rewrite <- Ews. now rewrite nth_error_map, Hk. }
    apply (columns_glue (w_rows w0) (map w_rows rest) N (map w_cols ws) k (w_cols w)).
    - rewrite (nth_error_nth _ _ [] Hkr). now apply (f_ws_rect k).
    - apply Forall_forall. intros l Hl. apply In_nth_error in Hl as [i Hi]. destruct (Hall i l Hi) as (? & _ & [H _]). exact H.
    - exact Hall.
    - rewrite Ews. cbn. now rewrite !map_length.
    - now rewrite nth_error_map, Hk.
    - exact Hkr.
  Qed.
  
  Lemma f_mix_split : split_tensor (mix_sizes subs) (T2 (Wide (list_sum (mix_sizes subs)) f_mix_rows)) = Ok (map T2 ws).
  Proof.
    unfold split_tensor, split2. cbn [w_cols w_rows]. rewrite Nat.eqb_refl. cbn [rmap]. do 2 f_equal.
    apply nth_error_ext; intro k. destruct (nth_error ws k) as [w|] eqn:E.
    - assert (Hs : nth_error (mix_sizes subs) k = Some (w_cols w)) by (rewrite <- f_sizes_ws, nth_error_map, E; reflexivity).
      rewrite (split_cols_nth _ f_mix_rows k _ Hs), (f_mix_pieces k w E). now destruct w.
    - apply nth_error_None in E. apply nth_error_None. rewrite split_cols_length.
      unfold mix_sizes. rewrite map_length. lia.
  Qed.

  Lemma f_items_nth k s : nth_error subs k = Some s -> nth_error items k = Some (sb_items s).
  Proof. intro H. unfold items. now rewrite nth_error_map, H. Qed.
  (** ** Log-likelihood *)
  Variables (data : list (list cell)) (mask : option (list (list bool))).
  Hypothesis Hdata : rect N (list_sum items) data.
  Hypothesis Hmask : rect_opt N (list_sum items) mask.
  Let W := T2 (Wide (list_sum (mix_sizes subs)) f_mix_rows).
  Let wdata := Wide (list_sum items) data.
  Let wmask := option_map (fun m => Wide (list_sum items) m) mask.
  Definition f_sub_data k s := columns (offset items k) (sb_items s) data.
  Definition f_sub_mask k s := option_map (columns (offset items k) (sb_items s)) mask.
  Lemma f_masked_sub k s n j : nth_error subs k = Some s -> (j < sb_items s)%nat ->
    masked (f_sub_mask k s) n j = masked mask n (offset items k + j).
  Proof.
    intros Hs Hj. unfold f_sub_mask. destruct mask as [m|]; cbn [option_map masked]; [|reflexivity].
    unfold columns. destruct (nth_error m n) as [r|] eqn:E.
    - rewrite (nth_error_nth _ _ [] E). erewrite (nth_error_nth _ n []) by (rewrite nth_error_map, E; reflexivity).
      destruct (nth_error r (offset items k + j)) as [b|] eqn:Eb.
      + rewrite (nth_error_nth _ _ false Eb). apply nth_error_nth. now rewrite nth_error_firstn_lt, nth_error_skipn_add by auto.
      + apply nth_error_None in Eb. rewrite (nth_overflow r) by auto. apply nth_overflow.
        rewrite firstn_length, skipn_length. lia.
    - apply nth_error_None in E. rewrite (nth_overflow m) by auto.
      rewrite (nth_overflow (map _ m)) by (now rewrite map_length). now rewrite !nth_overflow by (cbn; lia).
  Qed.
  Lemma f_offset_items_le k s : nth_error subs k = Some s -> (offset items k + sb_items s <= list_sum items)%nat.
  Proof.
    intro H. apply f_items_nth in H. destruct (sb_items s) as [|I] eqn:E.
    - unfold offset. rewrite <- (firstn_skipn k items) at 2. rewrite list_sum_app. lia.
    - pose proof (offset_bound items k (S I) I H ltac:(lia)). lia.
  Qed.
  Lemma f_sub_data_rect k s : nth_error subs k = Some s -> rect N (sb_items s) (f_sub_data k s).
  Proof. intro H. apply (columns_rect _ _ N (list_sum items)); auto. now apply f_offset_items_le. Qed.
  Lemma f_sub_mask_rect k s : nth_error subs k = Some s -> rect_opt N (sb_items s) (f_sub_mask k s).
  Proof.
    intro H. unfold f_sub_mask. destruct mask as [m|]; cbn [option_map rect_opt] in *; auto.
    apply (columns_rect _ _ N (list_sum items)); auto. now apply f_offset_items_le.
  Qed.
  (** The loop of log_likelihood, given every sub-model's own result. *)
  Lemma f_mix_ll_loop red (o : nat -> llout) :
    (forall k s w, nth_error subs k = Some s -> nth_error ws k = Some w ->
       sb_ll s red (f_sub_data k s) (T2 w) (f_sub_mask k s) = Ok (o k)) ->
    mix_log_likelihood subs red wdata W wmask =
    match red with
    | RMean => Err NotImplementedError
    | RSum => bind (mapM scalar_of (map o (seq 0 (length subs)))) (fun xs => Ok (Scalar (fsum xs)))
    | RNone => bind (mapM cells_of (map o (seq 0 (length subs)))) (fun ls => Ok (Cells (concat ls)))
    | ROther => Err OtherError
    end.
  Proof.
    intro Ho. unfold mix_log_likelihood, W. rewrite f_mix_split. cbn [bind].
    unfold split2 at 1. unfold wdata; cbn [w_cols w_rows]. fold items. rewrite Nat.eqb_refl. cbn [bind].
    assert (Hm : exists masks, split_mask subs wmask = Ok masks /\ length masks = length subs /\
       forall k s, nth_error subs k = Some s -> nth_error masks k = Some (f_sub_mask k s)).
    { unfold wmask, split_mask, f_sub_mask. destruct mask as [m|]; cbn [option_map].
      - unfold split2. cbn [w_cols w_rows]. fold items. rewrite Nat.eqb_refl. cbn [rmap]. eexists. split; [reflexivity|].
        rewrite map_length, split_cols_length. unfold items at 1. rewrite map_length. split; [reflexivity|].
        intros k s Hs. rewrite nth_error_map, (split_cols_nth items m k _ (f_items_nth k s Hs)). reflexivity.
      - eexists. split; [reflexivity|]. rewrite map_length. split; [reflexivity|]. intros k s Hs. now rewrite nth_error_map, Hs. }
    destruct Hm as (masks & -> & Hlm & Hms). cbn [bind].
    set (L := combine (combine (combine subs (split_cols items data)) masks) (map T2 ws)).
    assert (HL : length L = length subs).
    { unfold L. rewrite !combine_length, map_length, split_cols_length. unfold items. rewrite map_length. lia. }
    rewrite (mapM_index _ o L 0).
    - cbn [bind]. rewrite HL. reflexivity.
    - intros k [[[s d] m] t] Hk. unfold L in Hk. apply combine_nth_error in Hk as [Hk Ht]. apply combine_nth_error in Hk as [Hk Hmk].
      apply combine_nth_error in Hk as [Hs Hd]. cbn [Nat.add]. rewrite (Hms k s Hs) in Hmk. injection Hmk as <-.
      rewrite (split_cols_nth items data k _ (f_items_nth k s Hs)) in Hd. injection Hd as <-. cbn [w_rows].
      rewrite nth_error_map in Ht. destruct (nth_error ws k) as [w|] eqn:Ew; [|discriminate]. injection Ht as <-.
      now apply Ho.
  Qed.

End Flat.
