(** ModelMix assembled from honest sub-models. *)
From Verif Require Import Base BaseFacts RBase RFacts M_Data M_Logit S_Logit P_Logit P_Logit3 M_Lik S_Lik P_Lik1 P_Lik2 P_Lik3.
Local Open Scope R_scope.

Lemma mapM_as2 ws : mapM as2 (map T2 ws) = Ok ws.
Proof. induction ws as [|w ws IH]; [reflexivity|]. cbn [map mapM as2 bind]. rewrite IH. reflexivity. Qed.
Lemma cat_T2 ws : cat_tensors (map T2 ws) = rmap T2 (cat2 ws).
Proof. destruct ws as [|w ws]; [reflexivity|]. unfold cat_tensors. cbn [map]. change (T2 w :: map T2 ws) with (map T2 (w :: ws)). rewrite mapM_as2. reflexivity. Qed.

Section Mix.
  Variables (thetas : list (list R)) (subs : list sub) (ws : list (wide ext)) (Ps : list (list (list (list (option R))))).
  Let N := length thetas.
  Hypothesis Hne : subs <> [].
  Hypothesis Hlw : length ws = length subs.
  Hypothesis HlP : length Ps = length subs.
  Hypothesis Hsub : forall k s w P, nth_error subs k = Some s -> nth_error ws k = Some w -> nth_error Ps k = Some P ->
    honest_sub thetas s w P.
  Let items := map sb_items subs.

  Lemma pick k s : nth_error subs k = Some s -> exists w P, nth_error ws k = Some w /\ nth_error Ps k = Some P /\ honest_sub thetas s w P.
  Proof.
    intro H. assert (k < length subs)%nat by (apply nth_error_Some; congruence).
    destruct (nth_error ws k) as [w|] eqn:Ew; [|apply nth_error_None in Ew; lia].
    destruct (nth_error Ps k) as [P|] eqn:EP; [|apply nth_error_None in EP; lia].
    exists w, P. split; [|split]; auto. eapply Hsub; eauto.
  Qed.
  Lemma pick_w k w : nth_error ws k = Some w -> exists s P, nth_error subs k = Some s /\ nth_error Ps k = Some P /\ honest_sub thetas s w P.
  Proof.
    intro H. assert (k < length subs)%nat by (rewrite <- Hlw; apply nth_error_Some; congruence).
    destruct (nth_error subs k) as [s|] eqn:Es; [|apply nth_error_None in Es; lia].
    destruct (nth_error Ps k) as [P|] eqn:EP; [|apply nth_error_None in EP; lia].
    exists s, P. split; [|split]; auto. eapply Hsub; eauto.
  Qed.
  Lemma forwards : map (fun s => sb_forward s thetas) subs = map T2 ws.
  Proof.
    apply nth_error_ext; intro k. rewrite !nth_error_map. destruct (nth_error subs k) as [s|] eqn:E; cbn [option_map].
    - destruct (pick k s E) as (w & P & Ew & _ & H). rewrite Ew. cbn [option_map]. f_equal. apply H.
    - symmetry. apply nth_error_None in E. replace (nth_error ws k) with (@None (wide ext)); auto.
      symmetry. apply nth_error_None. lia.
  Qed.
  Lemma sizes_ws : map w_cols ws = mix_sizes subs.
  Proof.
    apply nth_error_ext; intro k. unfold mix_sizes. rewrite !nth_error_map. destruct (nth_error subs k) as [s|] eqn:E; cbn [option_map].
    - destruct (pick k s E) as (w & P & Ew & _ & H). rewrite Ew. cbn [option_map]. f_equal. apply H.
    - apply nth_error_None in E. replace (nth_error ws k) with (@None (wide ext)); auto.
      symmetry. apply nth_error_None. lia.
  Qed.
  Lemma ws_rect k w : nth_error ws k = Some w -> rect N (w_cols w) (w_rows w).
  Proof.
    intro E. destruct (pick_w k w E) as (s & P & _ & _ & H). destruct H as (_ & Hc & Hr & _). unfold N. now rewrite Hc.
  Qed.
  Definition mix_rows : list (list ext) :=
    match ws with [] => [] | w :: rest => fold_left glue (map w_rows rest) (w_rows w) end.
  Lemma ws_cons : exists w rest, ws = w :: rest.
  Proof.
    assert (H : length ws <> O) by (rewrite Hlw; intro E; apply Hne; now apply length_zero_iff_nil).
    revert H. clear. destruct ws as [|w rest]; cbn; [lia|eauto].
  Qed.
  Lemma mix_rows_eq w rest : ws = w :: rest -> mix_rows = fold_left glue (map w_rows rest) (w_rows w).
  Proof. unfold mix_rows. now intros ->. Qed.
  Lemma mix_forward_eq : mix_forward subs thetas = Ok (T2 (Wide (list_sum (mix_sizes subs)) mix_rows)).
  Proof.
    unfold mix_forward. rewrite forwards, cat_T2. unfold cat2. destruct ws_cons as (w & rest & Ews).
    rewrite (mix_rows_eq w rest Ews).
    assert (Hf : forallb (fun v => same_rows (length (w_rows w)) (w_rows v)) rest = true).
    { apply forallb_forall. intros v Hv. apply In_nth_error in Hv as [k Hk]. unfold same_rows. apply Nat.eqb_eq.
      destruct (ws_rect O w) as [H1 _]; [now rewrite Ews|].
      destruct (ws_rect (S k) v) as [H2 _]; [now rewrite Ews|]. lia. }
    rewrite <- sizes_ws, Ews, Hf. reflexivity.
  Qed.
  Lemma mix_pieces k w : nth_error ws k = Some w ->
    columns (offset (mix_sizes subs) k) (w_cols w) mix_rows = w_rows w.
  Proof.
    intro Hk. destruct ws_cons as (w0 & rest & Ews). rewrite (mix_rows_eq w0 rest Ews), <- sizes_ws.
    assert (Hall : forall i l, nth_error (w_rows w0 :: map w_rows rest) i = Some l ->
       exists w, nth_error (map w_cols ws) i = Some w /\ rect N w l).
    { intros i l Hi. change (w_rows w0 :: map w_rows rest) with (map w_rows (w0 :: rest)) in Hi. rewrite <- Ews in Hi.
      rewrite nth_error_map in Hi. destruct (nth_error ws i) as [v|] eqn:Ev; [|discriminate]. injection Hi as <-.
      exists (w_cols v). rewrite nth_error_map, Ev. split; [reflexivity|]. now apply (ws_rect i). }
    assert (Hkr : nth_error (w_rows w0 :: map w_rows rest) k = Some (w_rows w)).
    { change (w_rows w0 :: map w_rows rest) with (map w_rows (w0 :: rest)). rewrite <- Ews. now rewrite nth_error_map, Hk. }
    apply (columns_glue (w_rows w0) (map w_rows rest) N (map w_cols ws) k (w_cols w)).
    - rewrite (nth_error_nth _ _ [] Hkr). now apply (ws_rect k).
    - apply Forall_forall. intros l Hl. apply In_nth_error in Hl as [i Hi]. destruct (Hall i l Hi) as (? & _ & [H _]). exact H.
    - exact Hall.
    - rewrite Ews. cbn. now rewrite !map_length.
    - now rewrite nth_error_map, Hk.
    - exact Hkr.
  Qed.
  (** C29: splitting the concatenated output gives every sub-model its own output back. *)
  Lemma mix_split : split_tensor (mix_sizes subs) (T2 (Wide (list_sum (mix_sizes subs)) mix_rows)) = Ok (map T2 ws).
  Proof.
    unfold split_tensor, split2. cbn [w_cols w_rows]. rewrite Nat.eqb_refl. cbn [rmap]. do 2 f_equal.
    apply nth_error_ext; intro k. destruct (nth_error ws k) as [w|] eqn:E.
    - assert (Hs : nth_error (mix_sizes subs) k = Some (w_cols w)) by (rewrite <- sizes_ws, nth_error_map, E; reflexivity).
      rewrite (split_cols_nth _ mix_rows k _ Hs), (mix_pieces k w E). now destruct w.
    - apply nth_error_None in E. apply nth_error_None. rewrite split_cols_length.
      unfold mix_sizes. rewrite map_length. lia.
  Qed.

  (** ** Probabilities *)
  Definition mix_max : nat := list_max (map sb_max subs).
  Definition cubes : list cube := zip_with (fun s P => Cube (sb_items s) (sb_max s) P) subs Ps.
  Lemma cubes_nth k s : nth_error subs k = Some s -> exists P, nth_error Ps k = Some P /\ nth_error cubes k = Some (Cube (sb_items s) (sb_max s) P).
  Proof.
    intro H. destruct (pick k s H) as (w & P & _ & EP & _). exists P. split; auto.
    unfold cubes. now rewrite nth_error_zip_with, H, EP.
  Qed.
  Lemma cubes_length : length cubes = length subs.
  Proof. unfold cubes. rewrite zip_with_length. lia. Qed.
  Lemma cubes_probs : mapM (fun sp => sb_probs (fst sp) (snd sp)) (combine subs (map T2 ws)) = Ok cubes.
  Proof.
    rewrite (mapM_index _ (fun k => nth k cubes (Cube 0 0 [])) _ 0).
    - f_equal. rewrite combine_length, map_length, Hlw, Nat.min_id. rewrite <- cubes_length.
      apply nth_error_ext; intro k. destruct (Nat.lt_ge_cases k (length cubes)) as [H|H].
      + rewrite nth_error_map_seq by auto. symmetry. now apply nth_error_nth_lt.
      + transitivity (@None cube); [|symmetry]; apply nth_error_None; [rewrite map_length, seq_length|]; lia.
    - intros k [s t] H. apply combine_nth_error in H as [Hs Ht]. cbn [fst snd Nat.add].
      destruct (pick k s Hs) as (w & P & Ew & EP & HH). rewrite nth_error_map, Ew in Ht. injection Ht as <-.
      destruct (cubes_nth k s Hs) as (P' & EP' & Ec). rewrite EP in EP'. injection EP' as <-.
      rewrite (nth_error_nth _ _ _ Ec). apply HH.
  Qed.
  Definition padded (M : nat) (P : list (list (list (option R)))) (m : nat) : list (list (list (option R))) :=
    map (map (fun r => r ++ repeat (Some 0) (M - m))) P.
  Lemma pad_cube_eq size c : (cb_cats c <= size)%nat ->
    pad_cube size c = Cube (cb_items c) size (padded size (cb_rows c) (cb_cats c)).
  Proof.
    intro H. unfold pad_cube, padded. destruct (Nat.ltb_spec 0 (size - cb_cats c)); [reflexivity|].
    replace (size - cb_cats c)%nat with O by lia. destruct c as [i m rows]; cbn [cb_cats cb_items cb_rows repeat] in *.
    replace size with m by lia. f_equal. rewrite <- (map_id rows) at 1. apply map_ext. intro r.
    rewrite <- (map_id r) at 1. apply map_ext. intro q. now rewrite app_nil_r.
  Qed.
  Lemma max_bound k s : nth_error subs k = Some s -> (sb_max s <= mix_max)%nat.
  Proof.
    intro H. unfold mix_max. assert (HF : Forall (fun m => (m <= list_max (map sb_max subs))%nat) (map sb_max subs)).
    { apply list_max_le. lia. }
    rewrite Forall_forall in HF. apply HF. apply in_map. eapply nth_error_In; eauto.
  Qed.
  Lemma cubes_max : list_max (map cb_cats cubes) = mix_max.
  Proof.
    unfold mix_max. f_equal. apply nth_error_ext; intro k. rewrite !nth_error_map.
    destruct (nth_error subs k) as [s|] eqn:E; cbn [option_map].
    - destruct (cubes_nth k s E) as (P & _ & Ec). rewrite Ec. reflexivity.
    - apply nth_error_None in E. replace (nth_error cubes k) with (@None cube); auto.
      symmetry. apply nth_error_None. rewrite cubes_length. lia.
  Qed.
  Let pcubes := map (pad_cube mix_max) cubes.
  Lemma pcubes_nth k s : nth_error subs k = Some s -> exists P, nth_error Ps k = Some P /\
    nth_error pcubes k = Some (Cube (sb_items s) mix_max (padded mix_max P (sb_max s))).
  Proof.
    intro H. destruct (cubes_nth k s H) as (P & EP & Ec). exists P. split; auto. unfold pcubes.
    rewrite nth_error_map, Ec. cbn [option_map]. f_equal. rewrite pad_cube_eq by (cbn; now apply (max_bound k)). reflexivity.
  Qed.
  Lemma padded_rect N' I M m P : rect N' I P -> rect N' I (padded M P m).
  Proof.
    intros [H1 H2]. unfold padded. split; [now rewrite map_length|]. apply Forall_forall. intros r Hr.
    apply in_map_iff in Hr as [r0 [<- Hin]]. rewrite map_length. rewrite Forall_forall in H2. auto.
  Qed.
  Lemma padded_at2 M m P n i : at2 (padded M P m) n i = option_map (fun r => r ++ repeat (Some 0) (M - m)) (at2 P n i).
  Proof.
    unfold at2, padded. rewrite nth_error_map. destruct (nth_error P n); cbn [option_map]; [|reflexivity].
    now rewrite nth_error_map.
  Qed.
  Definition mix_table : list (list (list (option R))) :=
    match pcubes with [] => [] | c :: rest => fold_left glue (map cb_rows rest) (cb_rows c) end.
  Lemma pcubes_length : length pcubes = length subs.
  Proof. unfold pcubes. rewrite map_length. apply cubes_length. Qed.
  Lemma pcubes_cons : exists c rest, pcubes = c :: rest.
  Proof.
    assert (H : length pcubes <> O) by (rewrite pcubes_length; intro E; apply Hne; now apply length_zero_iff_nil).
    revert H. generalize pcubes. clear. intros [|w rest]; cbn; [lia|eauto].
  Qed.
  Lemma mix_table_eq c rest : pcubes = c :: rest -> mix_table = fold_left glue (map cb_rows rest) (cb_rows c).
  Proof. unfold mix_table. now intros ->. Qed.
  Lemma pcubes_inv k c : nth_error pcubes k = Some c -> exists s P, nth_error subs k = Some s /\ nth_error Ps k = Some P /\
    c = Cube (sb_items s) mix_max (padded mix_max P (sb_max s)) /\ rect N (sb_items s) (cb_rows c).
  Proof.
    intro H. assert (Hk : (k < length subs)%nat) by (rewrite <- cubes_length, <- (map_length (pad_cube mix_max)); apply nth_error_Some; fold pcubes; congruence).
    destruct (nth_error subs k) as [s|] eqn:E; [|apply nth_error_None in E; lia].
    destruct (pcubes_nth k s E) as (P & EP & Ec). rewrite Ec in H. injection H as <-.
    exists s, P. repeat split; auto; cbn [cb_rows];
      destruct (pick k s E) as (w & P' & _ & EP' & HH); rewrite EP in EP'; injection EP' as <-;
      destruct HH as (_ & _ & _ & _ & [Hr _] & _); apply (padded_rect N (sb_items s) mix_max (sb_max s) P Hr).
  Qed.
  Lemma items_pcubes : map cb_items pcubes = items.
  Proof.
    unfold items. apply nth_error_ext; intro k. rewrite !nth_error_map.
    destruct (nth_error subs k) as [s|] eqn:E; cbn [option_map].
    - destruct (pcubes_nth k s E) as (P & _ & Ec). rewrite Ec. reflexivity.
    - apply nth_error_None in E. replace (nth_error pcubes k) with (@None cube); auto.
      symmetry. apply nth_error_None. unfold pcubes. rewrite map_length, cubes_length. lia.
  Qed.
  Lemma mix_probs_eq : mix_item_probabilities subs thetas = Ok (Cube (list_sum items) mix_max mix_table).
  Proof.
    unfold mix_item_probabilities. rewrite mix_forward_eq. cbn [bind]. unfold mix_probs. rewrite mix_split. cbn [bind].
    rewrite cubes_probs. cbn [bind]. unfold pad_and_concat.
    destruct pcubes_cons as (c & rest & Ep).
    transitivity (cat3 pcubes).
    { unfold pcubes. rewrite <- cubes_max. revert Ep. unfold pcubes. generalize cubes. intros [|? ?] ?; [discriminate|reflexivity]. }
    rewrite (mix_table_eq c rest Ep). unfold cat3. rewrite <- items_pcubes, Ep.
    assert (Hf : forallb (fun v => same_rows (length (cb_rows c)) (cb_rows v) && (cb_cats c =? cb_cats v)%nat) rest = true).
    { apply forallb_forall. intros v Hv. apply In_nth_error in Hv as [k Hk].
      destruct (pcubes_inv O c) as (s1 & P1 & _ & _ & E1 & [H1 _]); [now rewrite Ep|].
      destruct (pcubes_inv (S k) v) as (s2 & P2 & _ & _ & E2 & [H2 _]); [now rewrite Ep|].
      apply andb_true_iff. split; [unfold same_rows; apply Nat.eqb_eq; lia|].
      rewrite E1, E2. cbn. apply Nat.eqb_refl. }
    rewrite Hf. f_equal.
    destruct (pcubes_inv O c) as (s1 & P1 & _ & _ & E1 & _); [now rewrite Ep|]. rewrite E1. reflexivity.
  Qed.
  Lemma mix_table_columns k s P : nth_error subs k = Some s -> nth_error Ps k = Some P ->
    columns (offset items k) (sb_items s) mix_table = padded mix_max P (sb_max s).
  Proof.
    intros Hs HP. destruct (pcubes_nth k s Hs) as (P' & EP' & Ec). rewrite HP in EP'. injection EP' as <-.
    destruct pcubes_cons as (c0 & rest & Ep). rewrite (mix_table_eq c0 rest Ep), <- items_pcubes.
    assert (Hall : forall i l, nth_error (cb_rows c0 :: map cb_rows rest) i = Some l ->
       exists w, nth_error (map cb_items pcubes) i = Some w /\ rect N w l).
    { intros i l Hi. change (cb_rows c0 :: map cb_rows rest) with (map cb_rows (c0 :: rest)) in Hi. rewrite <- Ep in Hi.
      rewrite nth_error_map in Hi. destruct (nth_error pcubes i) as [v|] eqn:Ev; [|discriminate]. injection Hi as <-.
      exists (cb_items v). rewrite nth_error_map, Ev. split; [reflexivity|].
      destruct (pcubes_inv i v Ev) as (s' & P' & _ & _ & E' & Hr). rewrite E' at 1. exact Hr. }
    assert (Hkr : nth_error (cb_rows c0 :: map cb_rows rest) k = Some (padded mix_max P (sb_max s))).
    { change (cb_rows c0 :: map cb_rows rest) with (map cb_rows (c0 :: rest)). rewrite <- Ep. now rewrite nth_error_map, Ec. }
    apply (columns_glue (cb_rows c0) (map cb_rows rest) N (map cb_items pcubes) k (sb_items s)).
    - rewrite (nth_error_nth _ _ [] Hkr). destruct (pcubes_inv k _ Ec) as (s' & P' & _ & _ & E' & Hr). pose proof (f_equal cb_items E') as E2. cbn [cb_items cb_rows] in E2, Hr. rewrite E2. exact Hr.
    - apply Forall_forall. intros l Hl. apply In_nth_error in Hl as [i Hi]. destruct (Hall i l Hi) as (? & _ & [H _]). exact H.
    - exact Hall.
    - rewrite Ep. cbn. now rewrite !map_length.
    - now rewrite nth_error_map, Ec.
    - exact Hkr.
  Qed.
  Lemma items_nth k s : nth_error subs k = Some s -> nth_error items k = Some (sb_items s).
  Proof. intro H. unfold items. now rewrite nth_error_map, H. Qed.
  (** Entry of the mix's table at item [j] of sub-model [k]. *)
  Lemma mix_table_row k s P n j : nth_error subs k = Some s -> nth_error Ps k = Some P -> (j < sb_items s)%nat ->
    at2 mix_table n (offset items k + j) = option_map (fun r => r ++ repeat (Some 0) (mix_max - sb_max s)) (at2 P n j).
  Proof.
    intros Hs HP Hj. rewrite <- (columns_at2 (offset items k) (sb_items s) mix_table n j Hj).
    rewrite (mix_table_columns k s P Hs HP). apply padded_at2.
  Qed.

  (** ** Log-likelihood *)
  Variables (data : list (list cell)) (mask : option (list (list bool))).
  Hypothesis Hdata : rect N (list_sum items) data.
  Hypothesis Hmask : rect_opt N (list_sum items) mask.
  Let W := T2 (Wide (list_sum (mix_sizes subs)) mix_rows).
  Let wdata := Wide (list_sum items) data.
  Let wmask := option_map (fun m => Wide (list_sum items) m) mask.
  Definition sub_data k s := columns (offset items k) (sb_items s) data.
  Definition sub_mask k s := option_map (columns (offset items k) (sb_items s)) mask.
  Lemma masked_sub k s n j : nth_error subs k = Some s -> (j < sb_items s)%nat ->
    masked (sub_mask k s) n j = masked mask n (offset items k + j).
  Proof.
    intros Hs Hj. unfold sub_mask. destruct mask as [m|]; cbn [option_map masked]; [|reflexivity].
    unfold columns. destruct (nth_error m n) as [r|] eqn:E.
    - rewrite (nth_error_nth _ _ [] E). erewrite (nth_error_nth _ n []) by (rewrite nth_error_map, E; reflexivity).
      destruct (nth_error r (offset items k + j)) as [b|] eqn:Eb.
      + rewrite (nth_error_nth _ _ false Eb). apply nth_error_nth. now rewrite nth_error_firstn_lt, nth_error_skipn_add by auto.
      + apply nth_error_None in Eb. rewrite (nth_overflow r) by auto. apply nth_overflow.
        rewrite firstn_length, skipn_length. lia.
    - apply nth_error_None in E. rewrite (nth_overflow m) by auto.
      rewrite (nth_overflow (map _ m)) by (now rewrite map_length). now rewrite !nth_overflow by (cbn; lia).
  Qed.
  Lemma offset_items_le k s : nth_error subs k = Some s -> (offset items k + sb_items s <= list_sum items)%nat.
  Proof.
    intro H. apply items_nth in H. destruct (sb_items s) as [|I] eqn:E.
    - unfold offset. rewrite <- (firstn_skipn k items) at 2. rewrite list_sum_app. lia.
    - pose proof (offset_bound items k (S I) I H ltac:(lia)). lia.
  Qed.
  Lemma sub_data_rect k s : nth_error subs k = Some s -> rect N (sb_items s) (sub_data k s).
  Proof. intro H. apply (columns_rect _ _ N (list_sum items)); auto. now apply offset_items_le. Qed.
  Lemma sub_mask_rect k s : nth_error subs k = Some s -> rect_opt N (sb_items s) (sub_mask k s).
  Proof.
    intro H. unfold sub_mask. destruct mask as [m|]; cbn [option_map rect_opt] in *; auto.
    apply (columns_rect _ _ N (list_sum items)); auto. now apply offset_items_le.
  Qed.
  (** The loop of log_likelihood, given every sub-model's own result. *)
  Lemma mix_ll_loop red (o : nat -> llout) :
    (forall k s w, nth_error subs k = Some s -> nth_error ws k = Some w ->
       sb_ll s red (sub_data k s) (T2 w) (sub_mask k s) = Ok (o k)) ->
    mix_log_likelihood subs red wdata W wmask =
    match red with
    | RMean => Err NotImplementedError
    | RSum => bind (mapM scalar_of (map o (seq 0 (length subs)))) (fun xs => Ok (Scalar (fsum xs)))
    | RNone => bind (mapM cells_of (map o (seq 0 (length subs)))) (fun ls => Ok (Cells (concat ls)))
    | ROther => Err OtherError
    end.
  Proof.
    intro Ho. unfold mix_log_likelihood, W. rewrite mix_split. cbn [bind].
    unfold split2 at 1. unfold wdata; cbn [w_cols w_rows]. fold items. rewrite Nat.eqb_refl. cbn [bind].
    assert (Hm : exists masks, split_mask subs wmask = Ok masks /\ length masks = length subs /\
       forall k s, nth_error subs k = Some s -> nth_error masks k = Some (sub_mask k s)).
    { unfold wmask, split_mask, sub_mask. destruct mask as [m|]; cbn [option_map].
      - unfold split2. cbn [w_cols w_rows]. fold items. rewrite Nat.eqb_refl. cbn [rmap]. eexists. split; [reflexivity|].
        rewrite map_length, split_cols_length. unfold items at 1. rewrite map_length. split; [reflexivity|].
        intros k s Hs. rewrite nth_error_map, (split_cols_nth items m k _ (items_nth k s Hs)). reflexivity.
      - eexists. split; [reflexivity|]. rewrite map_length. split; [reflexivity|]. intros k s Hs. now rewrite nth_error_map, Hs. }
    destruct Hm as (masks & -> & Hlm & Hms). cbn [bind].
    set (L := combine (combine (combine subs (split_cols items data)) masks) (map T2 ws)).
    assert (HL : length L = length subs).
    { unfold L. rewrite !combine_length, map_length, split_cols_length. unfold items. rewrite map_length. lia. }
    rewrite (mapM_index _ o L 0).
    - cbn [bind]. rewrite HL. reflexivity.
    - intros k [[[s d] m] t] Hk. unfold L in Hk. apply combine_nth_error in Hk as [Hk Ht]. apply combine_nth_error in Hk as [Hk Hmk].
      apply combine_nth_error in Hk as [Hs Hd]. cbn [Nat.add]. rewrite (Hms k s Hs) in Hmk. injection Hmk as <-.
      rewrite (split_cols_nth items data k _ (items_nth k s Hs)) in Hd. injection Hd as <-. cbn [w_rows].
      rewrite nth_error_map in Ht. destruct (nth_error ws k) as [w|] eqn:Ew; [|discriminate]. injection Ht as <-.
      now apply Ho.
  Qed.

  Variables (x : nat -> nat -> nat) (p : nat -> nat -> R).
  Hypothesis Hresp : responses N (list_sum items) mix_max mask data x.
  Hypothesis Hp : observed_probability N (list_sum items) mask mix_table x p.
  Let xs k := fun n j => x n (offset items k + j)%nat.
  Let ps k := fun n j => p n (offset items k + j)%nat.
  Lemma sub_positive k s P n j : nth_error subs k = Some s -> nth_error Ps k = Some P -> (n < N)%nat -> (j < sb_items s)%nat ->
    masked (sub_mask k s) n j = false -> (xs k n j < sb_max s)%nat /\ at3 P n j (xs k n j) = Some (Some (ps k n j)) /\ 0 < ps k n j.
  Proof.
    intros Hs HP Hn Hj Hm. rewrite (masked_sub k s n j Hs Hj) in Hm.
    assert (Hi : (offset items k + j < list_sum items)%nat) by (apply (offset_bound items k (sb_items s)); auto using items_nth).
    destruct (Hp n _ Hn Hi Hm) as [Ht Hpos]. fold (xs k n j) in Ht. fold (ps k n j) in Ht, Hpos.
    pose proof (mix_table_row k s P n j Hs HP Hj) as Hrow.
    destruct (pick k s Hs) as (w & P' & _ & EP' & HH). rewrite HP in EP'. injection EP' as <-.
    destruct HH as (_ & _ & _ & _ & [Hr Hlen] & _).
    destruct (rect_at2 P N (sb_items s) n j Hr Hn Hj) as [r Er]. rewrite Er in Hrow. cbn [option_map] in Hrow.
    pose proof (Hlen n j r Er) as Hl.
    assert (E3 : at3 mix_table n (offset items k + j) (xs k n j) = nth_error (r ++ repeat (Some 0) (mix_max - sb_max s)) (xs k n j)).
    { unfold at3. unfold at2 in *. destruct (nth_error mix_table n); [|discriminate]. now rewrite Hrow. }
    rewrite E3 in Ht. destruct (Nat.lt_ge_cases (xs k n j) (sb_max s)) as [Hlt|Hge].
    - split; auto. split; auto. rewrite nth_error_app1 in Ht by lia. unfold at3. unfold at2 in *.
      destruct (nth_error P n); [|discriminate]. now rewrite Er.
    - exfalso. rewrite nth_error_app2 in Ht by lia. apply nth_error_In in Ht. apply repeat_spec in Ht. injection Ht as Ht. lra.
  Qed.
  Lemma sub_responses k s P : nth_error subs k = Some s -> nth_error Ps k = Some P ->
    responses N (sb_items s) (sb_max s) (sub_mask k s) (sub_data k s) (xs k).
  Proof.
    intros Hs HP n j Hn Hj Hm. split; [|now apply (sub_positive k s P n j)].
    unfold sub_data. rewrite columns_at2 by auto. rewrite (masked_sub k s n j Hs Hj) in Hm.
    assert (Hi : (offset items k + j < list_sum items)%nat) by (apply (offset_bound items k (sb_items s)); auto using items_nth).
    now destruct (Hresp n _ Hn Hi Hm).
  Qed.
  Lemma sub_sum k s w P : nth_error subs k = Some s -> nth_error ws k = Some w -> nth_error Ps k = Some P ->
    sb_ll s RSum (sub_data k s) (T2 w) (sub_mask k s) =
    Ok (Scalar (Some (Fin (observed_sum N (sb_items s) (sub_mask k s) (fun n j => ln (ps k n j)))))).
  Proof.
    intros Hs Hw HP. destruct (Hsub k s w P Hs Hw HP) as (_ & _ & _ & _ & _ & Hsum & _).
    apply (Hsum (sub_data k s) (sub_mask k s) (xs k) (ps k)).
    - now apply sub_data_rect.
    - now apply sub_mask_rect.
    - now apply (sub_responses k s P).
    - intros n j Hn Hj Hm. now apply (sub_positive k s P n j).
  Qed.
  Definition part_sum k := sumn N (fun n => sumn (nth k items O) (fun j =>
    if masked mask n (offset items k + j) then 0 else ln (p n (offset items k + j)%nat))).
  Lemma part_sum_eq k s : nth_error subs k = Some s ->
    observed_sum N (sb_items s) (sub_mask k s) (fun n j => ln (ps k n j)) = part_sum k.
  Proof.
    intro Hs. unfold observed_sum, part_sum. rewrite (nth_error_nth _ _ O (items_nth k s Hs)).
    apply sumn_ext; intros n Hn. apply sumn_ext; intros j Hj. now rewrite (masked_sub k s n j Hs Hj).
  Qed.
  Lemma parts_total : sumn (length subs) part_sum = observed_sum N (list_sum items) mask (fun n i => ln (p n i)).
  Proof.
    unfold part_sum, observed_sum. rewrite sumn_swap. apply sumn_ext; intros n Hn.
    rewrite sumn_list_sum. unfold items; rewrite map_length; reflexivity.
  Qed.
  Lemma mix_sum_parts : mix_log_likelihood subs RSum wdata W wmask = Ok (Scalar (Some (Fin (sumn (length subs) part_sum)))).
  Proof.
    rewrite (mix_ll_loop RSum (fun k => Scalar (Some (Fin (part_sum k))))).
    - replace (mapM scalar_of (map (fun k => Scalar (Some (Fin (part_sum k)))) (seq 0 (length subs))))
        with (Ok (map (fun x => Some (Fin x)) (map part_sum (seq 0 (length subs))))).
      + cbn [bind]. rewrite fsum_fin, rsum_map_seq. reflexivity.
      + rewrite map_map. symmetry. generalize (seq 0 (length subs)) as l. induction l as [|a l IH]; [reflexivity|].
        cbn [map mapM scalar_of bind]. rewrite IH. reflexivity.
    - intros k s w Hs Hw. destruct (pick k s Hs) as (w' & P & Ew & EP & _). rewrite Hw in Ew. injection Ew as <-.
      rewrite (sub_sum k s w P Hs Hw EP). now rewrite (part_sum_eq k s Hs).
  Qed.
End Mix.
