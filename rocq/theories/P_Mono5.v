(** Proofs: forward pass of the monotone neural network model and its expected scores. *)
From Verif Require Import Base BaseFacts RBase RFacts M_Logit S_Logit P_Logit P_Logit2 P_Logit4 M_Mono S_Mono P_Mono1 P_Mono2 P_Mono3 P_Mono4.
Local Open Scope R_scope.

(** Units per item before the categories are formed. *)
Definition units (m : mnn) : nat := if n_sep_items m then 1%nat else n_max m.
Definition lv_out (m : mnn) (d p : nat) (t : R) : R :=
  match mnn_lv_output m d t with Ok l => nth p l 0 | Err _ => 0 end.

Lemma separations_units m : n_separations m = (n_items m * units m)%nat.
Proof. unfold n_separations, units. destruct (n_sep_items m); lia. Qed.
Lemma ngroups_sep m : ngroups (n_cats m) (n_sep_items m) = n_separations m.
Proof. reflexivity. Qed.
Lemma column_length {A} (x : A) d rows : length (column x d rows) = length rows.
Proof. apply map_length. Qed.
Lemma column_nth d rows i : nth i (column false d rows) false = nth d (nth i rows []) false.
Proof.
  unfold column. destruct (Nat.lt_ge_cases i (length rows)) as [H|H].
  - apply nth_error_nth. now rewrite nth_error_map, (nth_error_nth_lt rows i []) by auto.
  - rewrite (nth_overflow rows) by auto. rewrite nth_overflow by (rewrite map_length; auto). now destruct d.
Qed.
Lemma layer_zero_unrelated (cats : list nat) (sep : bool) (rel : list bool) (h i j q : nat) : length rel = length cats -> (i < length cats)%nat ->
  (j < if sep then 1 else list_max cats)%nat -> (q < h)%nat -> nth i rel false = false ->
  nth ((i * (if sep then 1 else list_max cats) + j) * h + q) (layer_zero_out cats sep rel h) false = true.
Proof.
  intros Hr Hi Hj Hq Hf. unfold layer_zero_out. destruct sep.
  - replace (i * 1 + j)%nat with i by lia. apply nth_error_nth. rewrite nth_error_repeat_interleave by auto.
    rewrite nth_error_map, (nth_error_nth_lt _ _ false) by lia. now rewrite Hf.
  - apply nth_error_nth. rewrite nth_error_zip_with, nth_error_repeat_interleave by auto.
    replace ((i * list_max cats + j) * h + q)%nat with (i * (h * list_max cats) + (j * h + q))%nat by nia.
    rewrite nth_error_repeat_interleave by nia. rewrite nth_error_map, (nth_error_nth_lt rel i false) by lia. rewrite Hf. cbn [option_map negb].
    rewrite (nth_error_nth_lt (missing_category cats (list_max cats)) _ false) by (rewrite missing_category_length; nia).
    now rewrite orb_true_r.
Qed.

Lemma lv_output_spec m d t t' : mnn_ok m -> (d < n_lv m)%nat -> t <= t' ->
  exists l l', mnn_lv_output m d t = Ok l /\ mnn_lv_output m d t' = Ok l' /\
    length l = n_separations m /\ length l' = n_separations m /\
    forall i j, (i < n_items m)%nat -> (j < units m)%nat ->
      (0 <= mnn_direction m i d -> nth (i * units m + j) l 0 <= nth (i * units m + j) l' 0) /\
      (mnn_direction m i d <= 0 -> nth (i * units m + j) l' 0 <= nth (i * units m + j) l 0).
Proof.
  intros (H1 & H2 & H3 & H4 & H4b & H5 & H6 & H7 & H8 & H9) Hd Ht.
  destruct (H8 d Hd) as [W1 W2].
  destruct (layers_run (n_bounded m) _ _ _ _ _ _ [t] W1 H5 eq_refl H4b) as (y & Hy & Hyl & Hy0 & Hym).
  destruct (Hym [t'] ltac:(constructor; [auto|constructor])) as (y' & Hy' & Hle).
  destruct (layers_run (n_bounded m) _ _ _ _ _ _ [t'] W1 H5 eq_refl H4b) as (y2 & Hy2 & _ & Hy0' & _).
  rewrite Hy' in Hy2. injection Hy2 as <-.
  set (h := last (n_hidden m) O) in *.
  assert (Hh : (0 < h)%nat).
  { unfold h. assert (Q : In (last (n_hidden m) O) (n_hidden m)).
    { destruct (exists_last H4b) as (l0 & a & ->). rewrite last_last. apply in_or_app. right. now left. }
    rewrite Forall_forall in H4. now apply H4. }
  pose proof (le_vec_length _ _ Hle) as Hl'.
  rewrite ngroups_sep in Hyl.
  set (S0 := fun y : list R => map rsum (blocks h y)).
  assert (Hs : forall v, length v = (n_separations m * h)%nat -> length (S0 v) = n_separations m /\
            forall p, (p < n_separations m)%nat -> nth_error (S0 v) p = Some (sumn h (fun q => nth (p * h + q) v 0))).
  { intros v Hv. unfold S0. rewrite (block_sums h (n_separations m)) by auto. split; [now rewrite map_length, seq_length|].
    intros p Hp. now rewrite nth_error_map_seq. }
  destruct (Hs y Hyl) as [Sl Sn]. destruct (Hs y' ltac:(lia)) as [Sl' Sn'].
  set (rel := column false d (n_rel m)) in *.
  assert (Hrl : length rel = n_items m) by (unfold rel; rewrite column_length; auto).
  assert (Hmono : forall p, (p < n_separations m)%nat -> nth p (S0 y) 0 <= nth p (S0 y') 0).
  { intros p Hp. rewrite (nth_error_nth _ _ 0 (Sn p Hp)), (nth_error_nth _ _ 0 (Sn' p Hp)). apply sumn_le. intros q Hq. now apply le_vec_nth. }
  assert (Hzero : forall i j v, (forall o, nth o (layer_zero_out (n_cats m) (n_sep_items m) rel h) false = true -> nth o v 0 = 0) ->
     length v = (n_separations m * h)%nat ->
     (i < n_items m)%nat -> (j < units m)%nat -> nth i rel false = false -> nth (i * units m + j) (S0 v) 0 = 0).
  { intros i j v Hv Hvl Hi Hj Hf. destruct (Hs v Hvl) as [_ Hn].
    assert (Hp : (i * units m + j < n_separations m)%nat) by (rewrite separations_units; nia).
    rewrite (nth_error_nth _ _ 0 (Hn _ Hp)). rewrite (sumn_ext _ _ (fun _ => 0)); [apply sumn_0|]. intros q Hq.
    apply Hv. unfold units in *. apply (layer_zero_unrelated (n_cats m) (n_sep_items m) rel h i j q); auto. }
  unfold mnn_lv_output. rewrite Hy, Hy'. cbn [bind]. fold h. fold (S0 y). fold (S0 y'). fold rel.
  eexists; eexists; split; [reflexivity|]. split; [reflexivity|].
  destruct (n_negative m) eqn:En.
  - set (ipi := if n_sep_items m then 1%nat else n_max m). fold (units m) in ipi.
    set (zo := if n_sep_items m then repeat false (n_items m) else missing_category (n_cats m) (n_max m)).
    assert (Hzo : length zo = n_separations m).
    { unfold zo, n_separations. destruct (n_sep_items m); [apply repeat_length|apply missing_category_length]. }
    assert (Hwl : length (negation_weight rel ipi (nth d (n_neg m) [])) = n_separations m).
    { unfold negation_weight. rewrite mask_scatter_length, repeat_length, Hrl, separations_units. reflexivity. }
    assert (Hlen : forall v, length (S0 v) = n_separations m -> length (negation_forward rel ipi zo (nth d (n_neg m) []) (S0 v)) = n_separations m).
    { intros v Hv. unfold negation_forward. rewrite zip_with_length, Hwl, set_mask_length; lia. }
    split; [now apply Hlen|]. split; [now apply Hlen|]. intros i j Hi Hj.
    assert (Hp : (i * units m + j < n_separations m)%nat) by (rewrite separations_units; nia).
    assert (Hnth : forall v, length (S0 v) = n_separations m ->
       nth (i * units m + j) (negation_forward rel ipi zo (nth d (n_neg m) []) (S0 v)) 0 =
       (if nth (i * units m + j) zo false then 0 else nth (i * units m + j) (S0 v) 0) * mnn_direction m i d).
    { intros v Hv. apply nth_error_nth. unfold negation_forward. rewrite nth_error_zip_with.
      rewrite (nth_error_set_mask _ _ _ _ (nth (i * units m + j) zo false)) by (apply nth_error_nth_lt; lia).
      rewrite (nth_error_nth_lt (S0 v) (i * units m + j) 0) by lia.
      change (i * units m + j)%nat with (i * ipi + j)%nat. rewrite negation_weight_nth by (auto; lia).
      unfold mnn_direction. rewrite En. unfold rel. rewrite column_nth.
      destruct (nth (i * ipi + j) zo false); reflexivity. }
    rewrite (Hnth y Sl), (Hnth y' Sl'). pose proof (Hmono _ Hp).
    destruct (nth (i * units m + j) zo false); split; intro; nra.
  - split; [auto|]. split; [auto|]. intros i j Hi Hj.
    assert (Hp : (i * units m + j < n_separations m)%nat) by (rewrite separations_units; nia).
    split; intro Hdir.
    + now apply Hmono.
    + unfold mnn_direction in Hdir. rewrite En in Hdir. rewrite <- column_nth in Hdir. fold rel in Hdir.
      destruct (nth i rel false) eqn:Er; [lra|].
      rewrite (Hzero i j y), (Hzero i j y') by (auto; lia). lra.
Qed.
Lemma lv_out_ok m d t : mnn_ok m -> (d < n_lv m)%nat ->
  mnn_lv_output m d t = Ok (map (fun p => lv_out m d p t) (seq 0 (n_separations m))).
Proof.
  intros Hm Hd. destruct (lv_output_spec m d t t Hm Hd ltac:(lra)) as (l & _ & Hl & _ & Hll & _).
  unfold lv_out. rewrite Hl. f_equal. apply nth_error_ext. intro p.
  destruct (Nat.lt_ge_cases p (n_separations m)) as [Hp|Hp].
  - rewrite nth_error_map_seq by auto. apply nth_error_nth_lt. lia.
  - rewrite (proj2 (nth_error_None l p)) by lia. symmetry. apply nth_error_None. rewrite map_length, seq_length. auto.
Qed.
Lemma lv_out_monotone m d i j t t' : mnn_ok m -> (d < n_lv m)%nat -> (i < n_items m)%nat -> (j < units m)%nat -> t <= t' ->
  (0 <= mnn_direction m i d -> lv_out m d (i * units m + j) t <= lv_out m d (i * units m + j) t') /\
  (mnn_direction m i d <= 0 -> lv_out m d (i * units m + j) t' <= lv_out m d (i * units m + j) t).
Proof.
  intros Hm Hd Hi Hj Ht. destruct (lv_output_spec m d t t' Hm Hd Ht) as (l & l' & Hl & Hl' & _ & _ & H).
  unfold lv_out. rewrite Hl, Hl'. now apply H.
Qed.

(** Sum over the latent variables. *)
Lemma fold_vec_add (n : nat) (f : nat -> nat -> R) lv s acc : length acc = n ->
  length (fold_left vec_add (map (fun d => map (f d) (seq 0 n)) (seq s lv)) acc) = n /\
  forall p, (p < n)%nat ->
  nth_error (fold_left vec_add (map (fun d => map (f d) (seq 0 n)) (seq s lv)) acc) p =
  Some (nth p acc 0 + sumn lv (fun d => f (s + d)%nat p)).
Proof.
  revert s acc. induction lv as [|lv IH]; intros s acc Ha.
  - cbn. split; [auto|]. intros p Hp. rewrite Rplus_0_r. apply nth_error_nth_lt. lia.
  - cbn [seq map fold_left].
    assert (Hl : length (vec_add acc (map (f s) (seq 0 n))) = n).
    { unfold vec_add. rewrite zip_with_length, map_length, seq_length. lia. }
    destruct (IH (S s) _ Hl) as [I1 I2]. split; [auto|]. intros p Hp. rewrite I2 by auto. f_equal.
    rewrite sumn_S_first, Nat.add_0_r.
    assert (nth p (vec_add acc (map (f s) (seq 0 n))) 0 = nth p acc 0 + f s p) as ->.
    { apply nth_error_nth. unfold vec_add. rewrite nth_error_zip_with, nth_error_map_seq by auto.
      now rewrite (nth_error_nth_lt acc p 0) by lia. }
    rewrite Rplus_assoc. f_equal. f_equal. apply sumn_ext. intros k _. f_equal. lia.
Qed.
(** The output of item [i], category column [k], before categories are formed. *)
Definition mnn_unit (m : mnn) (t : list R) (i k : nat) : R :=
  sumn (n_lv m) (fun d => lv_out m d (i * units m + (if n_sep_items m then 0 else k)) (nth d t 0)).
Definition mnn_table (m : mnn) (t : list R) : list R :=
  concat (map (fun i => map (mnn_unit m t i) (seq 0 (n_max m))) (seq 0 (n_items m))).
Lemma table_length {A} (f : nat -> nat -> A) n M : length (concat (map (fun i => map (f i) (seq 0 M)) (seq 0 n))) = (n * M)%nat.
Proof.
  rewrite (length_concat_const _ M); [now rewrite map_length, seq_length|].
  apply Forall_forall. intros l Hl. apply in_map_iff in Hl as (i & <- & _). now rewrite map_length, seq_length.
Qed.
Lemma table_nth {A} (f : nat -> nat -> A) n M i k : (i < n)%nat -> (k < M)%nat ->
  nth_error (concat (map (fun i => map (f i) (seq 0 M)) (seq 0 n))) (i * M + k) = Some (f i k).
Proof.
  intros Hi Hk. rewrite (nth_error_concat_const _ M i k (map (f i) (seq 0 M))).
  - now rewrite nth_error_map_seq.
  - apply Forall_forall. intros l Hl. apply in_map_iff in Hl as (i' & <- & _). now rewrite map_length, seq_length.
  - now rewrite nth_error_map_seq.
  - auto.
Qed.
Lemma table_ext {A} (l : list A) (f : nat -> nat -> A) n M : length l = (n * M)%nat ->
  (forall i k, (i < n)%nat -> (k < M)%nat -> nth_error l (i * M + k) = Some (f i k)) ->
  l = concat (map (fun i => map (f i) (seq 0 M)) (seq 0 n)).
Proof.
  intros Hl H. apply nth_error_ext. intro p. destruct (Nat.lt_ge_cases p (n * M)) as [Hp|Hp].
  - destruct (position_split n M p Hp) as (i & k & Hi & Hk & ->). rewrite table_nth by auto. now apply H.
  - rewrite (proj2 (nth_error_None l p)) by lia. symmetry. apply nth_error_None. rewrite table_length. auto.
Qed.
Lemma mnn_forward1_table m t : mnn_ok m -> length t = n_lv m ->
  mnn_forward1 m t = match n_key m with
                     | None => Ok (cumulative_logits (n_cats m) (n_bias m) (mnn_table m t))
                     | Some key => key_logits (n_cats m) key (n_bias m) (mnn_table m t)
                     end.
Proof.
  intros Hm Ht. unfold mnn_forward1.
  rewrite (mapM_total _ (fun d => map (fun p => lv_out m d p (nth d t 0)) (seq 0 (n_separations m)))).
  2:{ intros d Hd. apply in_seq in Hd. apply lv_out_ok; auto; lia. }
  cbn [bind].
  destruct (fold_vec_add (n_separations m) (fun d p => lv_out m d p (nth d t 0)) (n_lv m) 0 (repeat 0 (n_separations m)) (repeat_length _ _)) as [F1 F2].
  set (out := fold_left vec_add _ _) in *.
  assert (E : (if n_sep_items m then repeat_interleave (n_max m) out else out) = mnn_table m t).
  { unfold mnn_table. apply table_ext.
    - rewrite separations_units in F1. unfold units in F1. destruct (n_sep_items m); [rewrite repeat_interleave_length|]; lia.
    - intros i k Hi Hk. rewrite separations_units in F2. unfold mnn_unit.
      unfold units in *. destruct (n_sep_items m).
      + rewrite nth_error_repeat_interleave by auto. rewrite F2 by lia. 
        f_equal. replace (i * 1 + 0)%nat with i by lia.
        replace (nth i _ 0) with 0 by (symmetry; apply nth_repeat). ring_simplify. reflexivity.
      + rewrite F2 by nia. f_equal.
        replace (nth (i * n_max m + k) _ 0) with 0 by (symmetry; apply nth_repeat). ring_simplify. reflexivity. }
  rewrite E. reflexivity.
Qed.

(** ** Category logits *)
Definition bias_at (cats : list nat) (bias : list R) (i k : nat) : R :=
  nth (i * list_max cats + k) (full_bias (map negb (missing_category cats (list_max cats))) bias) 0.
Lemma rcumsum_from_nth acc l k : (k < length l)%nat ->
  nth_error (rcumsum_from acc l) k = Some (acc + sumn (S k) (fun j => nth j l 0)).
Proof.
  revert acc k. induction l as [|x l IH]; intros acc k Hk; [cbn in Hk; lia|].
  destruct k as [|k]; cbn [rcumsum_from nth_error].
  - f_equal. cbn. ring.
  - rewrite IH by (cbn in Hk; lia). f_equal. rewrite (sumn_S_first (S k)). cbn [nth]. ring.
Qed.
Lemma rcumsum_from_length acc l : length (rcumsum_from acc l) = length l.
Proof. revert acc. induction l; intro; cbn; auto. Qed.
Lemma add_category_bias_nth cats bias out i k K : length out = (length cats * list_max cats)%nat ->
  nth_error cats i = Some K -> (k < list_max cats)%nat ->
  nth_error (add_category_bias cats bias out) (i * list_max cats + k) =
  Some (if (k <? K)%nat then Fin (nth (i * list_max cats + k) out 0 + bias_at cats bias i k) else NInf).
Proof.
  intros Ho Hi Hk. assert (Hil : (i < length cats)%nat) by (apply nth_error_Some; congruence).
  unfold add_category_bias. set (M := list_max cats) in *. set (ms := missing_category cats M).
  assert (Hml : length ms = (length cats * M)%nat) by apply missing_category_length.
  assert (Hmk : nth_error ms (i * M + k) = Some (negb (k <? K)%nat)).
  { unfold ms. rewrite (nth_error_missing_category cats M i k K Hi Hk). f_equal.
    destruct (Nat.ltb_spec k K), (Nat.leb_spec K k); try reflexivity; lia. }
  rewrite (nth_error_set_mask _ _ _ _ _ Hmk). rewrite nth_error_map, nth_error_zip_with.
  rewrite (nth_error_nth_lt out _ 0) by nia.
  rewrite (nth_error_nth_lt (full_bias (map negb ms) bias) _ 0) by (rewrite full_bias_length, map_length; nia).
  unfold bias_at. fold M ms. destruct (k <? K)%nat; reflexivity.
Qed.
Lemma add_category_bias_length cats bias out : length out = (length cats * list_max cats)%nat ->
  length (add_category_bias cats bias out) = (length cats * list_max cats)%nat.
Proof.
  intro Ho. unfold add_category_bias.
  assert (L : length (map Fin (zip_with Rplus out (full_bias (map negb (missing_category cats (list_max cats))) bias))) = (length cats * list_max cats)%nat)
    by (rewrite map_length, zip_with_length, full_bias_length, map_length, missing_category_length; lia).
  rewrite set_mask_length, L; [auto|]. now rewrite missing_category_length.
Qed.
Lemma cumulative_nth cats bias u i k K : cats <> [] -> (0 < list_max cats)%nat -> nth_error cats i = Some K -> (k < list_max cats)%nat ->
  nth_error (cumulative_logits cats bias (concat (map (fun i => map (u i) (seq 0 (list_max cats))) (seq 0 (length cats))))) (i * list_max cats + k) =
  Some (if (k <? K)%nat then Fin (sumn (S k) (u i) + bias_at cats bias i k) else NInf).
Proof.
  intros Hne HM Hi Hk. assert (Hil : (i < length cats)%nat) by (apply nth_error_Some; congruence).
  unfold cumulative_logits. set (M := list_max cats) in *.
  rewrite blocks_flat by (auto; apply Forall_forall; intros l Hl; apply in_map_iff in Hl as (j & <- & _); now rewrite map_length, seq_length).
  rewrite map_map.
  assert (E : concat (map (fun x => rcumsum (map (u x) (seq 0 M))) (seq 0 (length cats))) =
              concat (map (fun i => map (fun k => sumn (S k) (u i)) (seq 0 M)) (seq 0 (length cats)))).
  { f_equal. apply map_ext. intro x. apply nth_error_ext. intro p. destruct (Nat.lt_ge_cases p M) as [Hp|Hp].
    - unfold rcumsum. rewrite rcumsum_from_nth by (rewrite map_length, seq_length; auto). rewrite nth_error_map_seq by auto.
      f_equal. rewrite Rplus_0_l. apply sumn_ext. intros j Hj. rewrite nth_map_seq by lia. reflexivity.
    - rewrite !(proj2 (nth_error_None _ p)); [reflexivity| |]; unfold rcumsum; rewrite ?rcumsum_from_length, map_length, seq_length; auto. }
  rewrite E. rewrite (add_category_bias_nth cats bias _ i k K) by (auto; apply table_length).
  fold M. rewrite (nth_error_nth _ _ 0 (table_nth (fun i k => sumn (S k) (u i)) (length cats) M i k Hil Hk)). reflexivity.
Qed.
Lemma cumulative_length cats bias u : (0 < list_max cats)%nat ->
  length (cumulative_logits cats bias (concat (map (fun i => map (u i) (seq 0 (list_max cats))) (seq 0 (length cats))))) = (length cats * list_max cats)%nat.
Proof.
  intro HM. unfold cumulative_logits. apply add_category_bias_length.
  rewrite blocks_flat by (auto; apply Forall_forall; intros l Hl; apply in_map_iff in Hl as (j & <- & _); now rewrite map_length, seq_length).
  rewrite (length_concat_const _ (list_max cats)).
  - now rewrite !map_length, seq_length.
  - apply Forall_forall. intros l Hl. rewrite map_map in Hl. apply in_map_iff in Hl as (j & <- & _).
    unfold rcumsum. now rewrite rcumsum_from_length, map_length, seq_length.
Qed.

Lemma mnn_unit_monotone m t t' d i k : mnn_ok m -> (d < n_lv m)%nat -> (i < n_items m)%nat -> (k < n_max m)%nat ->
  increases_in d t t' ->
  (0 <= mnn_direction m i d -> mnn_unit m t i k <= mnn_unit m t' i k) /\
  (mnn_direction m i d <= 0 -> mnn_unit m t' i k <= mnn_unit m t i k).
Proof.
  intros Hm Hd Hi Hk (Hl & Hlt & Heq). unfold mnn_unit. set (j := if n_sep_items m then 0%nat else k).
  assert (Hj : (j < units m)%nat) by (unfold j, units; destruct (n_sep_items m); lia).
  destruct (lv_out_monotone m d i j (nth d t 0) (nth d t' 0) Hm Hd Hi Hj ltac:(lra)) as [L1 L2].
  split; intro Hdir; apply sumn_le; intros e He; destruct (Nat.eq_dec e d) as [->|Hne]; auto; rewrite (Heq e Hne); lra.
Qed.

Lemma mnn_expected m thetas r r' t t' i d : mnn_ok m -> n_key m = None ->
  Forall (fun t => length t = n_lv m) thetas -> nth_error thetas r = Some t -> nth_error thetas r' = Some t' ->
  (d < n_lv m)%nat -> (i < n_items m)%nat -> increases_in d t t' ->
  exists probs es e e', mnn_probabilities m thetas = Ok probs /\
    expected_item_scores (n_items m) (n_max m) None probs = Ok es /\
    at2 es r i = Some (Some e) /\ at2 es r' i = Some (Some e') /\
    (0 <= mnn_direction m i d -> e <= e') /\ (mnn_direction m i d <= 0 -> e' <= e).
Proof.
  intros Hm Hkey HF Hr Hr' Hd Hi Hinc. pose proof Hm as (H1 & H2 & _).
  pose proof (list_max_pos _ H1 H2) as HM. fold (n_max m) in HM.
  set (row := fun t => cumulative_logits (n_cats m) (n_bias m) (mnn_table m t)).
  assert (Hf : mnn_forward m thetas = Ok (map row thetas)).
  { unfold mnn_forward. apply mapM_total. intros a Ha. rewrite Forall_forall in HF.
    rewrite mnn_forward1_table by auto. now rewrite Hkey. }
  assert (HFl : Forall (fun o : list ext => length o = (n_items m * n_max m)%nat) (map row thetas)).
  { apply Forall_forall. intros o Ho. apply in_map_iff in Ho as (a & <- & _). unfold row, mnn_table. apply cumulative_length. exact HM. }
  destruct (nth_error (n_cats m) i) as [K|] eqn:EK; [|apply nth_error_None in EK; unfold n_items in Hi; lia].
  assert (HK : (1 <= K <= n_max m)%nat).
  { rewrite Forall_forall in H2. split; [apply H2; eapply nth_error_In; eauto|]. apply list_max_bound. eapply nth_error_In; eauto. }
  assert (Hrow : forall a k, (k < n_max m)%nat -> nth_error (row a) (i * n_max m + k) =
      Some (if (k <? K)%nat then Fin (sumn (S k) (mnn_unit m a i) + bias_at (n_cats m) (n_bias m) i k) else NInf)).
  { intros a k Hk. unfold row, mnn_table. now apply cumulative_nth. }
  assert (Hrt : nth_error (map row thetas) r = Some (row t)) by now rewrite nth_error_map, Hr.
  assert (Hrt' : nth_error (map row thetas) r' = Some (row t')) by now rewrite nth_error_map, Hr'.
  set (z := fun a k => sumn (S k) (mnn_unit m a i) + bias_at (n_cats m) (n_bias m) i k).
  assert (Hdiff : forall a k, z a (S k) - z a k = mnn_unit m a i (S k) + (bias_at (n_cats m) (n_bias m) i (S k) - bias_at (n_cats m) (n_bias m) i k)).
  { intros a k. unfold z. cbn [sumn]. ring. }
  unfold mnn_probabilities. rewrite Hf. cbn [rmap].
  destruct (Rle_lt_dec 0 (mnn_direction m i d)) as [Hdir|Hdir].
  - destruct (expected_monotone_general (n_items m) (n_max m) (map row thetas) r r' (row t) (row t') i K (z t) (z t'))
      as (es & e & e' & He & Hr1 & Hr2 & Hee); auto; try (apply Hrow).
    { intros k Hk. rewrite !Hdiff. apply Rplus_le_compat_r. apply (mnn_unit_monotone m t t' d i (S k)); auto; lia. }
    exists (probabilities_from_output (n_items m) (n_max m) (map row thetas)), es, e, e'.
    split; [reflexivity|]. split; [auto|]. split; [auto|]. split; [auto|]. split; [auto|].
    intro Hdir'. destruct (expected_monotone_general (n_items m) (n_max m) (map row thetas) r' r (row t') (row t) i K (z t') (z t))
      as (es2 & a & b & He2 & Ha & Hb & Hab); auto; try (apply Hrow).
    { intros k Hk. rewrite !Hdiff. apply Rplus_le_compat_r. apply (mnn_unit_monotone m t t' d i (S k)); auto; lia. }
    congruence || (rewrite He in He2; injection He2 as <-; rewrite Hr2 in Ha; rewrite Hr1 in Hb; injection Ha as <-; injection Hb as <-; exact Hab).
  - destruct (expected_monotone_general (n_items m) (n_max m) (map row thetas) r' r (row t') (row t) i K (z t') (z t))
      as (es2 & a & b & He2 & Ha & Hb & Hab); auto; try (apply Hrow).
    { intros k Hk. rewrite !Hdiff. apply Rplus_le_compat_r. apply (mnn_unit_monotone m t t' d i (S k)); auto; try lia; lra. }
    exists (probabilities_from_output (n_items m) (n_max m) (map row thetas)), es2, b, a.
    split; [reflexivity|]. split; [auto|]. split; [auto|]. split; [auto|]. split; [intro; lra|auto].
Qed.
