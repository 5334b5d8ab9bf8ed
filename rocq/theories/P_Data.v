(** Proofs about the data-preparation model. *)
From Coq Require Import QArith.
From Coq Require Import ZifyBool.
From Verif Require Import Base BaseFacts M_Data S_Data.
Local Close Scope Q_scope.

(** *** One-hot encoding *)

Definition oh (K : nat) (c : cell) : list Z :=
  match response c with
  | Some j => upd j 1%Z (repeat 0%Z K)
  | None => repeat 0%Z K
  end.

Lemma oh_length K c : length (oh K c) = K.
Proof. unfold oh; destruct (response c); rewrite ?upd_length, ?repeat_length; auto. Qed.

Definition legal_cell (K : nat) (c : cell) : Prop :=
  Missing c \/ exists z, c = Some z /\ (0 <= z < Z.of_nat K)%Z.

Lemma one_hot_cell_legal K c : legal_cell K c -> one_hot_cell K (nan_to_m1 c) = Ok (oh K c).
Proof.
  intros [[->| ->]|[z [-> Hz]]]; try reflexivity.
  unfold nan_to_m1, one_hot_cell, oh, response, norm_index; cbn [is_nan].
  destruct (Z.eqb_spec z (-1)); [lia|].
  replace ((0 <=? z)%Z && (z <? Z.of_nat K)%Z) with true by lia. reflexivity.
Qed.

Lemma one_hot_cell_dichotomy K c :
  (exists b, one_hot_cell K (nan_to_m1 c) = Ok b) \/ one_hot_cell K (nan_to_m1 c) = Err IndexError.
Proof.
  destruct c as [z|]; cbn; eauto. destruct (z =? -1)%Z; eauto.
  destruct (norm_index K z); eauto.
Qed.

Lemma one_hot_cell_big K z : (Z.of_nat K <= z)%Z -> one_hot_cell K (nan_to_m1 (Some z)) = Err IndexError.
Proof.
  intro H. unfold nan_to_m1, one_hot_cell, norm_index; cbn [is_nan].
  destruct (Z.eqb_spec z (-1)); [lia|].
  replace ((0 <=? z)%Z && (z <? Z.of_nat K)%Z) with false by lia.
  replace ((- Z.of_nat K <=? z)%Z && (z <? 0)%Z) with false by lia. reflexivity.
Qed.

Lemma nth_map_default {A B} (f : A -> B) l i d d' : i < length l -> nth i (map f l) d' = f (nth i l d).
Proof. intro H. rewrite nth_indep with (d' := f d) by now rewrite map_length. apply map_nth. Qed.

Lemma one_hot_col_legal rows i K cols :
  Forall (fun r => length r = cols) rows -> i < cols ->
  (forall r, In r rows -> legal_cell K (nth i r None)) ->
  one_hot_col (map (map nan_to_m1) rows) i K = Ok (map (fun r => oh K (nth i r None)) rows).
Proof.
  intros HF Hi Hl. unfold one_hot_col.
  rewrite (mapM_total _ (fun r => match one_hot_cell K (nth i r None) with Ok b => b | _ => [] end)).
  - rewrite map_map. f_equal. apply map_ext_in. intros r Hr. cbv beta.
    rewrite (nth_map_default _ _ _ (None : cell)) by (rewrite Forall_forall in HF; now rewrite HF).
    now rewrite one_hot_cell_legal by auto.
  - intros r' Hr'. apply in_map_iff in Hr' as [r [<- Hr]].
    rewrite (nth_map_default _ _ _ (None : cell)) by (rewrite Forall_forall in HF; now rewrite HF).
    now rewrite one_hot_cell_legal by auto.
Qed.


Lemma map_eq_nth_seq {A B} (f : A -> B) (l : list A) (g : nat -> B) :
  (forall i a, nth_error l i = Some a -> g i = f a) -> map g (seq 0 (length l)) = map f l.
Proof.
  intro H. apply nth_error_ext; intro i. destruct (Nat.lt_ge_cases i (length l)) as [Hi|Hi].
  - rewrite nth_error_map_seq by auto. rewrite nth_error_map.
    destruct (nth_error l i) eqn:E; [|apply nth_error_None in E; lia].
    cbn. f_equal. now apply H.
  - rewrite (proj2 (nth_error_None _ _)) by (rewrite map_length, seq_length; auto).
    symmetry; apply nth_error_None. now rewrite map_length.
Qed.

Lemma flat_map_mapi_from {A B C} (f : nat -> A -> B) (g : B -> list C) (l : list A) i :
  flat_map g (mapi_from i f l) = concat (mapi_from i (fun j a => g (f j a)) l).
Proof. revert i; induction l; intro i; cbn; auto. now rewrite IHl. Qed.

Lemma mapi_from_ext {A B} (f g : nat -> A -> B) l i :
  (forall j a, nth_error l j = Some a -> f (i + j) a = g (i + j) a) -> mapi_from i f l = mapi_from i g l.
Proof.
  revert i; induction l as [|a l IH]; intros i H; cbn; auto. f_equal.
  - specialize (H 0 a eq_refl). now rewrite Nat.add_0_r in H.
  - apply IH. intros j b Hb. replace (S i + j) with (i + S j) by lia. now apply H.
Qed.
Lemma mapi_ext {A B} (f g : nat -> A -> B) l :
  (forall j a, nth_error l j = Some a -> f j a = g j a) -> mapi f l = mapi g l.
Proof. intro H; apply mapi_from_ext; cbn; auto. Qed.

Definition encode_row (cats : list nat) (row : list cell) : list Z :=
  concat (mapi (fun i K => oh K (nth i row None)) cats).

Lemma one_hot_encode_eq d cats :
  rectangular d -> m_cols d = length cats -> cats <> [] -> legal cats d ->
  fst (one_hot_encode d cats) = Ok (map (encode_row cats) (m_rows d)).
Proof.
  intros [Hdim HF] Hcols Hne Hleg. unfold one_hot_encode.
  rewrite Hdim, Hcols, !Nat.eqb_refl; cbn [negb fst].
  rewrite (mapiM_total _ (fun i K => map (fun r => oh K (nth i r None)) (m_rows d))).
  - cbn [bind]. destruct (mapi _ cats) eqn:E.
    + apply (f_equal (@length _)) in E. rewrite mapi_length in E. destruct cats; [congruence|discriminate].
    + rewrite <- E; clear E. f_equal. cbn [fill_nan m_rows]. rewrite map_length.
      apply map_eq_nth_seq. intros r row Hr. unfold mapi.
      rewrite flat_map_mapi_from. unfold encode_row, mapi. f_equal.
      apply mapi_from_ext. intros j K HK; cbn [Nat.add].
      apply (map_nth_error (fun r0 => oh K (nth j r0 None))) in Hr.
      now apply nth_error_nth.
  - intros i K HK. cbn [fill_nan m_rows]. apply (one_hot_col_legal _ _ _ (m_cols d)); auto.
    + rewrite Hcols. apply nth_error_Some; congruence.
    + intros r Hr. apply (Hleg r i K); auto.
      rewrite Forall_forall in HF. rewrite nth_error_nth_lt with (d := (None : cell)); auto.
      rewrite HF, Hcols by auto. apply nth_error_Some; congruence.
Qed.

Lemma nth_error_repeat0 K k (x : Z) : nth_error (repeat 0%Z K) k = Some x -> x = 0%Z.
Proof. intro H. apply nth_error_In in H. now apply repeat_spec in H. Qed.

Lemma oh_nth K c k : legal_cell K c -> k < K ->
  exists x, nth_error (oh K c) k = Some x /\
    ((c = Some (Z.of_nat k) /\ x = 1%Z) \/ (c <> Some (Z.of_nat k) /\ x = 0%Z)).
Proof.
  intros Hl Hk. unfold oh.
  destruct Hl as [[->| ->]|[z [-> Hz]]].
  - cbn. exists 0%Z. rewrite nth_error_repeat_lt by auto. split; auto. right; split; congruence.
  - cbn. exists 0%Z. rewrite nth_error_repeat_lt by auto. split; auto. right; split; auto.
    intro E; injection E; lia.
  - cbn. destruct (Z.eqb_spec z (-1)); [lia|].
    rewrite nth_error_upd by (rewrite repeat_length; lia).
    destruct (Nat.eqb_spec (Z.to_nat z) k) as [<-|Hne].
    + exists 1%Z; split; auto. left. split; auto. f_equal; lia.
    + exists 0%Z. rewrite nth_error_repeat_lt by auto. split; auto. right; split; auto.
      intro E; injection E as ->. lia.
Qed.

Lemma encode_row_lengths cats row :
  map (@length Z) (mapi (fun i K => oh K (nth i row None)) cats) = cats.
Proof.
  unfold mapi. generalize 0 as s. induction cats as [|K cats IH]; intro s; cbn; auto.
  now rewrite oh_length, IH.
Qed.

Lemma encode_row_spec cats row :
  length row = length cats ->
  (forall i K c, nth_error cats i = Some K -> nth_error row i = Some c -> legal_cell K c) ->
  is_one_hot cats row (encode_row cats row).
Proof.
  intros Hlen Hl. split.
  - unfold encode_row. now rewrite length_concat_sum, encode_row_lengths.
  - intros i K c k HK Hc Hk. unfold encode_row.
    pose proof (nth_error_mapi (fun i K => oh K (nth i row None)) cats i) as HM.
    rewrite HK in HM; cbn in HM.
    assert (Hnth : nth i row None = c) by now apply nth_error_nth.
    rewrite Hnth in HM.
    pose proof (nth_error_concat _ i k _ HM) as HC. rewrite oh_length in HC.
    specialize (HC Hk). rewrite encode_row_lengths in HC. unfold offset in HC. rewrite HC.
    apply oh_nth; auto. now apply (Hl i K c).
Qed.

Lemma one_hot_correct d cats :
  rectangular d -> m_cols d = length cats -> cats <> [] -> legal cats d ->
  exists enc, fst (one_hot_encode d cats) = Ok enc /\ Forall2 (is_one_hot cats) (m_rows d) enc.
Proof.
  intros Hr Hc Hne Hl. exists (map (encode_row cats) (m_rows d)). split.
  - now apply one_hot_encode_eq.
  - destruct Hr as [_ HF]. assert (HA : Forall (fun r => is_one_hot cats r (encode_row cats r)) (m_rows d)).
    { rewrite Forall_forall in *. intros r Hin. apply encode_row_spec.
      - now rewrite HF, Hc.
      - intros i K c HK Hcc. now apply (Hl r i K c). }
    clear HF Hl Hc. induction HA; constructor; auto.
Qed.

(** The code determines the responses. *)
Lemma first_one_spec l k j :
  (forall i x, nth_error l i = Some x -> (x = 1%Z /\ i = j) \/ (x = 0%Z /\ i <> j)) ->
  j < length l -> first_one k l = Some (k + j).
Proof.
  revert k j; induction l as [|a l IH]; intros k j H Hj; cbn in *; [lia|].
  destruct (H 0 a eq_refl) as [[-> <-]|[-> Hne]]; cbn.
  - f_equal; lia.
  - destruct j as [|j]; [congruence|]. rewrite IH with (j := j); [f_equal; lia| |lia].
    intros i x Hx. destruct (H (S i) x Hx) as [[? ?]|[? ?]]; [left|right]; split; auto; lia.
Qed.
Lemma first_one_none l k : (forall i x, nth_error l i = Some x -> x = 0%Z) -> first_one k l = None.
Proof.
  revert k; induction l as [|a l IH]; intros k H; cbn; auto.
  rewrite (H 0 a eq_refl); cbn. apply IH. intros i x Hx; apply (H (S i) x Hx).
Qed.

Lemma is_one_hot_tail K cats c row enc :
  is_one_hot (K :: cats) (c :: row) enc -> is_one_hot cats row (skipn K enc).
Proof.
  intros [Hlen H]. split.
  - rewrite skipn_length, Hlen; unfold list_sum; cbn [fold_right]; lia.
  - intros i K' c' k HK Hc Hk. destruct (H (S i) K' c' k HK Hc Hk) as [x [Hx Hd]].
    exists x; split; auto. rewrite nth_error_skipn_add. rewrite <- Hx. f_equal. cbn [firstn]. unfold list_sum; cbn [fold_right]; lia.
Qed.

Lemma decode_correct cats row enc :
  length row = length cats ->
  (forall i K c, nth_error cats i = Some K -> nth_error row i = Some c ->
     Missing c \/ exists z, c = Some z /\ (0 <= z < Z.of_nat K)%Z) ->
  is_one_hot cats row enc -> decode cats enc = map response row.
Proof.
  revert row enc; induction cats as [|K cats IH]; intros [|c row] enc Hlen Hl Ho; cbn in Hlen; try lia; auto.
  cbn [decode map]. f_equal.
  - destruct Ho as [Hlen' Ho].
    assert (Hf : forall i x, nth_error (firstn K enc) i = Some x ->
                 (c = Some (Z.of_nat i) /\ x = 1%Z) \/ (c <> Some (Z.of_nat i) /\ x = 0%Z)).
    { intros i x Hx.
      assert (Hi : i < K).
      { assert (i < length (firstn K enc)) by (apply nth_error_Some; congruence).
        rewrite firstn_length in H. lia. }
      rewrite nth_error_firstn_lt in Hx by auto.
      destruct (Ho 0 K c i eq_refl eq_refl Hi) as [y [Hy Hd]]. cbn in Hy.
      assert (x = y) by congruence. subst y. exact Hd. }
    destruct (Hl 0 K c eq_refl eq_refl) as [[->| ->]|[z [-> Hz]]].
    + apply first_one_none. intros i x Hx. destruct (Hf i x Hx) as [[? ?]|[? ?]]; auto. discriminate.
    + apply first_one_none. intros i x Hx. destruct (Hf i x Hx) as [[E ?]|[? ?]]; auto.
      injection E; lia.
    + cbn. destruct (Z.eqb_spec z (-1)); [lia|].
      rewrite first_one_spec with (j := Z.to_nat z); auto.
      * intros i x Hx. destruct (Hf i x Hx) as [[E ->]|[E ->]]; [left|right]; split; auto.
        -- injection E as ->. lia.
        -- intro; subst. apply E. f_equal. lia.
      * rewrite firstn_length, Hlen'. cbn. lia.
  - apply IH; [lia| |].
    + intros i K' c' HK Hc. now apply (Hl (S i) K' c').
    + now apply is_one_hot_tail in Ho.
Qed.

Lemma one_hot_roundtrip d cats :
  rectangular d -> m_cols d = length cats -> cats <> [] -> legal cats d ->
  exists enc, fst (one_hot_encode d cats) = Ok enc /\
    map (decode cats) enc = map (map response) (m_rows d).
Proof.
  intros Hr Hc Hne Hl. exists (map (encode_row cats) (m_rows d)). split.
  - now apply one_hot_encode_eq.
  - rewrite map_map. apply map_ext_in. intros r Hin. destruct Hr as [_ HF].
    rewrite Forall_forall in HF. apply decode_correct.
    + now rewrite HF, Hc.
    + intros i K c HK Hcc. now apply (Hl r i K c).
    + apply encode_row_spec; [now rewrite HF, Hc|]. intros i K c HK Hcc. now apply (Hl r i K c).
Qed.

Lemma one_hot_errors d cats :
  (m_dim d <> 2 -> fst (one_hot_encode d cats) = Err ValueError) /\
  (m_dim d = 2 -> m_cols d <> length cats -> fst (one_hot_encode d cats) = Err ValueError) /\
  (rectangular d -> m_cols d = length cats ->
   (exists row i K z, In row (m_rows d) /\ nth_error cats i = Some K /\
                      nth_error row i = Some (Some z) /\ (Z.of_nat K <= z)%Z) ->
   fst (one_hot_encode d cats) = Err IndexError).
Proof.
  unfold one_hot_encode. repeat split.
  - intro H. apply Nat.eqb_neq in H. now rewrite H.
  - intros H H2. rewrite H; cbn. apply Nat.eqb_neq in H2. now rewrite H2.
  - intros [Hdim HF] Hcols (row & i & K & z & Hin & HK & Hz & Hge).
    rewrite Hdim, Hcols, !Nat.eqb_refl; cbn [negb fst fill_nan m_rows].
    rewrite (mapiM_Err _ _ IndexError); auto.
    + intros j K' HK'. unfold one_hot_col.
      apply mapM_dichotomy. intros a Ha. apply in_map_iff in Ha as [r [<- Hr]].
      rewrite (nth_map_default _ _ _ (None : cell)).
      * apply one_hot_cell_dichotomy.
      * rewrite Forall_forall in HF. rewrite HF, Hcols by auto. apply nth_error_Some; congruence.
    + exists i, K. split; auto. unfold one_hot_col. apply mapM_Err.
      * intros a Ha. apply in_map_iff in Ha as [r [<- Hr]].
        rewrite (nth_map_default _ _ _ (None : cell)).
        -- apply one_hot_cell_dichotomy.
        -- rewrite Forall_forall in HF. rewrite HF, Hcols by auto. apply nth_error_Some; congruence.
      * exists (map nan_to_m1 row). split; [now apply in_map|].
        rewrite (nth_map_default _ _ _ (None : cell)).
        -- rewrite (nth_error_nth _ _ _ Hz). now apply one_hot_cell_big.
        -- apply nth_error_Some; congruence.
Qed.

(** *** Missing mask *)

Lemma at_map {A B} (f : A -> B) m r c : at_ (map (map f) m) r c = option_map f (at_ m r c).
Proof.
  unfold at_. rewrite nth_error_map. destruct (nth_error m r); cbn; auto. now rewrite nth_error_map.
Qed.

Lemma same_shape_map {A B} (f : A -> B) m : same_shape m (map (map f) m).
Proof.
  split; [now rewrite map_length|]. intros r row row' H H'. rewrite nth_error_map, H in H'.
  cbn in H'. injection H' as <-. now rewrite map_length.
Qed.

Lemma missing_cell_spec c : missing_cell c = true <-> Missing c.
Proof.
  unfold missing_cell, Missing. destruct c as [z|]; cbn.
  - rewrite orb_false_r. split.
    + intro H. right. f_equal. lia.
    + intros [H|H]; [discriminate|]. injection H as ->. reflexivity.
  - tauto.
Qed.

Lemma missing_mask_spec d :
  same_shape (m_rows d) (get_missing_mask d) /\
  forall r c x, at_ (m_rows d) r c = Some x ->
    exists b, at_ (get_missing_mask d) r c = Some b /\ (b = true <-> Missing x).
Proof.
  split; [apply same_shape_map|]. intros r c x Hx. exists (missing_cell x). split.
  - unfold get_missing_mask. now rewrite at_map, Hx.
  - apply missing_cell_spec.
Qed.

(** *** Caller's matrix *)

Definition no_nan (d : mat) : Prop := forall row c, In row (m_rows d) -> In c row -> c <> None.

Lemma fill_nan_id d : fill_nan d = d <-> no_nan d.
Proof.
  destruct d as [dim cols rows]. unfold fill_nan, no_nan; cbn. split.
  - intros H row c Hr Hc. injection H as H. intros ->.
    assert (HE : map nan_to_m1 row = row).
    { revert H Hr. clear Hc. revert row. induction rows as [|r0 rows IH]; cbn; intros row H Hr; [destruct Hr|].
      injection H as H1 H2. destruct Hr as [->|Hr]; auto. }
    revert HE Hc. clear. induction row as [|a row IH]; cbn; intros HE Hc; [destruct Hc|].
    injection HE as H1 H2. destruct Hc as [->|Hc]; auto. discriminate.
  - intro H. f_equal. rewrite <- (map_id rows) at 2. apply map_ext_in. intros r Hr.
    rewrite <- (map_id r) at 2. apply map_ext_in. intros c Hc.
    unfold nan_to_m1. destruct c; auto. exfalso. apply (H r None Hr Hc); auto.
Qed.

Lemma one_hot_caller d cats :
  snd (one_hot_encode d cats) = d <->
  (m_dim d <> 2 \/ m_cols d <> length cats \/ no_nan d).
Proof.
  unfold one_hot_encode. destruct (Nat.eqb_spec (m_dim d) 2) as [Hd|Hd]; cbn [negb snd].
  - destruct (Nat.eqb_spec (m_cols d) (length cats)) as [Hc|Hc]; cbn [negb snd].
    + rewrite fill_nan_id. tauto.
    + tauto.
  - tauto.
Qed.

Lemma one_hot_caller_content d cats r c x :
  m_dim d = 2 -> m_cols d = length cats -> at_ (m_rows d) r c = Some x ->
  at_ (m_rows (snd (one_hot_encode d cats))) r c =
    Some (match x with None => Some (-1)%Z | Some z => Some z end).
Proof.
  intros Hd Hc Hx. unfold one_hot_encode. rewrite Hd, Hc, !Nat.eqb_refl; cbn [negb snd fill_nan m_rows].
  rewrite at_map, Hx. destruct x; reflexivity.
Qed.

Lemma dataset_clone d cats ds :
  fst (dataset_one_hot d (Some cats)) = Ok ds -> ds_data ds = d /\ ds_mask ds = get_missing_mask d.
Proof.
  unfold dataset_one_hot. destruct (one_hot_encode d cats) as [r d'] eqn:E. cbn.
  destruct r; cbn; intro H; [|discriminate]. injection H as <-. auto.
Qed.

Lemma dataset_impute_clone draw d m mc cats ds :
  fst (dataset_impute draw d m mc cats) = Ok ds ->
  ds_data ds = d /\ ds_mask ds = get_missing_mask d /\ fst (impute_internal draw d m mc cats) = Ok (ds_input ds).
Proof.
  unfold dataset_impute. destruct (impute_internal draw d m mc cats) as [r d'] eqn:E. cbn.
  destruct r; cbn; intro H; [|discriminate]. injection H as <-. auto.
Qed.

Lemma dataset_one_hot_caller d cats :
  snd (dataset_one_hot d (Some cats)) = snd (one_hot_encode d cats).
Proof. unfold dataset_one_hot. now destruct (one_hot_encode d cats). Qed.

Lemma dataset_impute_caller draw d m mc cats : snd (dataset_impute draw d m mc cats) = d.
Proof. reflexivity. Qed.

(** *** Imputation *)

Lemma fills_intro d out (f : nat -> nat -> cell -> qcell) (fill : nat -> nat -> qcell -> Prop) :
  out = mapi (fun r row => mapi (fun c x => f r c (m1_to_nan x)) row) (m_rows d) ->
  (forall r c z, f r c (Some z) = Some (inject_Z z)) ->
  (forall r c x, at_ (m_rows d) r c = Some x -> Missing x -> fill r c (f r c None)) ->
  fills d out fill.
Proof.
  intros -> Hs Hn. split.
  - split; [now rewrite mapi_length|]. intros r row row' H H'.
    rewrite nth_error_mapi, H in H'. cbn in H'. injection H' as <-. now rewrite mapi_length.
  - intros r c x Hx. pose proof (Hn r c x Hx) as Hfill.
    assert (Hat : at_ (mapi (fun r row => mapi (fun c x => f r c (m1_to_nan x)) row) (m_rows d)) r c
                  = Some (f r c (m1_to_nan x))).
    { unfold at_ in *. rewrite nth_error_mapi. destruct (nth_error (m_rows d) r); [|discriminate].
      cbn. now rewrite nth_error_mapi, Hx. }
    exists (f r c (m1_to_nan x)). split; auto.
    destruct x as [z|].
    + unfold m1_to_nan; cbn [is_m1]. destruct (Z.eqb_spec z (-1)).
      * right. subst. assert (Missing (Some (-1)%Z)) by (right; auto). auto.
      * left. split; [|cbn; apply Hs]. intros [E|E]; congruence.
    + right. assert (Missing None) by (left; auto). auto.
Qed.

Lemma map_as_mapi {A B} (f : A -> B) l : map f l = mapi (fun _ x => f x) l.
Proof. unfold mapi. generalize 0. induction l; intro n; cbn; auto. now rewrite <- IHl. Qed.

Lemma mapi_map {A B C} (g : nat -> B -> C) (f : A -> B) l : mapi g (map f l) = mapi (fun i x => g i (f x)) l.
Proof. unfold mapi. generalize 0. induction l; intro n; cbn; auto. now rewrite <- IHl. Qed.

Lemma impute_zero_spec draw d mc cats :
  exists out, fst (impute_internal draw d IZero mc cats) = Ok out /\
    fills d out (fun _ _ y => y = Some 0%Q).
Proof.
  eexists; split; [reflexivity|].
  apply (fills_intro d _ (fun _ _ c => match c with None => Some 0%Q | Some z => Some (inject_Z z) end));
    auto.
  unfold zero_fill. rewrite map_map. rewrite map_as_mapi. apply mapi_ext. intros r row _.
  rewrite map_map. rewrite map_as_mapi. reflexivity.
Qed.

Lemma observed_sum l :
  fold_right Z.add 0%Z (observed (map m1_to_nan l)) = obs_sum l /\
  length (observed (map m1_to_nan l)) = obs_count l.
Proof.
  induction l as [|[z|] l [IH1 IH2]]; cbn; auto.
  unfold m1_to_nan at 1 3; cbn [is_m1]. destruct (Z.eqb_spec z (-1)); cbn; split; auto; try lia.
  f_equal; exact IH1.
Qed.

Lemma col_of_m1 d c : rectangular d -> c < m_cols d ->
  col_of c (map (map m1_to_nan) (m_rows d)) = map m1_to_nan (col_cells d c).
Proof.
  intros [_ HF] Hc. unfold col_of, col_cells. rewrite !map_map. apply map_ext_in. intros r Hr.
  rewrite Forall_forall in HF. specialize (HF r Hr).
  rewrite (nth_map_default _ _ _ (None : cell)) by lia. f_equal.
  rewrite (nth_error_nth_lt r c (None : cell)) by lia. reflexivity.
Qed.

Lemma at_col_lt d r c x : rectangular d -> at_ (m_rows d) r c = Some x -> c < m_cols d.
Proof.
  intros [_ HF] H. unfold at_ in H. destruct (nth_error (m_rows d) r) as [row|] eqn:E; [|discriminate].
  rewrite Forall_forall in HF. rewrite <- (HF row) by (eapply nth_error_In; eauto).
  apply nth_error_Some. congruence.
Qed.

Definition mean_fill_spec (d : mat) (r c : nat) (y : qcell) : Prop :=
  (obs_count (col_cells d c) = 0 /\ y = None) \/
  (0 < obs_count (col_cells d c) /\
   exists q, y = Some q /\
     (q * inject_Z (Z.of_nat (obs_count (col_cells d c))) == inject_Z (obs_sum (col_cells d c)))%Q).

Lemma impute_mean_spec draw d mc cats :
  rectangular d ->
  exists out, fst (impute_internal draw d IMean mc cats) = Ok out /\ fills d out (mean_fill_spec d).
Proof.
  intro Hr. eexists; split; [reflexivity|].
  apply (fills_intro d _ (fun _ c x => match x with Some z => Some (inject_Z z)
           | None => nanmean (col_of c (map (map m1_to_nan) (m_rows d))) end)); auto.
  - unfold mean_fill. rewrite map_map, map_as_mapi. apply mapi_ext. intros r row _.
    now rewrite mapi_map.
  - intros r c x Hx _. pose proof (at_col_lt _ _ _ _ Hr Hx) as Hc.
    rewrite col_of_m1 by auto. unfold nanmean, mean_fill_spec.
    destruct (observed_sum (col_cells d c)) as [H1 H2].
    destruct (observed (map m1_to_nan (col_cells d c))) as [|z o] eqn:E.
    + left. rewrite <- H2. auto.
    + right. rewrite <- H2. split; [cbn; lia|]. eexists; split; [reflexivity|].
      rewrite <- H1. field. intro HH. unfold Qeq in HH. cbn -[Z.of_nat] in HH. lia.
Qed.

Lemma fold_max_spec l z : let m := fold_left Z.max l z in
  (z <= m)%Z /\ (forall x, In x l -> (x <= m)%Z) /\ (m = z \/ In m l).
Proof.
  revert z; induction l as [|a l IH]; intros z; cbn.
  - repeat split; auto; [lia|tauto].
  - destruct (IH (Z.max z a)) as (H1 & H2 & H3). repeat split.
    + lia.
    + intros x [->|Hx]; auto. lia.
    + destruct H3 as [H3|H3]; [|tauto]. rewrite H3 in *.
      destruct (Z.max_spec z a) as [[? ->]|[? ->]]; auto.
Qed.

Lemma max_list_spec l :
  match max_list l with
  | None => l = []
  | Some m => In m l /\ forall x, In x l -> (x <= m)%Z
  end.
Proof.
  destruct l as [|z l]; cbn; auto. destruct (fold_max_spec l z) as (H1 & H2 & H3). split.
  - destruct H3; auto.
  - intros x [->|Hx]; auto.
Qed.

Lemma max_list_unique l m : In m l -> (forall x, In x l -> (x <= m)%Z) -> max_list l = Some m.
Proof.
  intros Hi Hm. pose proof (max_list_spec l) as H. destruct (max_list l) as [m'|].
  - destruct H as [H1 H2]. f_equal. apply Z.le_antisymm; auto.
  - subst. destruct Hi.
Qed.

Lemma in_observed l z : In z (observed l) <-> In (Some z) l.
Proof.
  induction l as [|[a|] l IH]; cbn; [tauto| |].
  - rewrite IH. split; intros [H|H]; auto; left; congruence.
  - rewrite IH. split; [auto|]. intros [H|H]; auto. discriminate.
Qed.

Lemma in_col_of c rows z : (forall r, In r rows -> c < length r) ->
  In (Some z) (col_of c rows) <-> exists r, at_ rows r c = Some (Some z).
Proof.
  intro Hl. unfold col_of. rewrite in_map_iff. split.
  - intros [row [He Hi]]. apply In_nth_error in Hi as Hi'. destruct Hi' as [r Hr]. exists r.
    unfold at_. rewrite Hr. rewrite (nth_error_nth_lt row c (None : cell)) by auto. congruence.
  - intros [r H]. unfold at_ in H. destruct (nth_error rows r) as [row|] eqn:E; [|discriminate].
    exists row. split; [now apply nth_error_nth|]. eapply nth_error_In; eauto.
Qed.

Lemma infer_categories_eq d (K : nat -> Z) :
  rectangular d -> cats_ok d None K ->
  infer_categories (m_cols d) (map (map m1_to_nan) (m_rows d)) =
    Ok (map (fun c => Some (K c)) (seq 0 (m_cols d))).
Proof.
  intros Hr [Hne HK]. unfold infer_categories.
  destruct (m_rows d) as [|r0 rows0] eqn:Erows; [congruence|]. rewrite <- Erows in *.
  destruct (map (map m1_to_nan) (m_rows d)) eqn:E2; [rewrite Erows in E2; discriminate|].
  rewrite <- E2. f_equal. apply map_ext_in. intros c Hc. apply in_seq in Hc.
  destruct (HK c) as [[r [Hat Hm1]] Hmax]; [lia|].
  assert (Hlen : forall row, In row (map (map m1_to_nan) (m_rows d)) -> c < length row).
  { intros row Hin. apply in_map_iff in Hin as [row' [<- Hin]]. rewrite map_length.
    destruct Hr as [_ HF]. rewrite Forall_forall in HF. rewrite HF; auto. lia. }
  rewrite (max_list_unique _ (K c - 1)%Z).
  - cbn. f_equal. lia.
  - apply in_observed, in_col_of; auto. exists r. rewrite at_map, Hat. cbn.
    unfold m1_to_nan; cbn. destruct (Z.eqb_spec (K c - 1) (-1)); [congruence|reflexivity].
  - intros x Hx. apply in_observed, in_col_of in Hx; auto. destruct Hx as [r' Hx].
    rewrite at_map in Hx. destruct (at_ (m_rows d) r' c) as [y|] eqn:E; [|discriminate].
    cbn in Hx. injection Hx as Hx. destruct y as [y|]; [|discriminate].
    unfold m1_to_nan in Hx; cbn in Hx. destruct (Z.eqb_spec y (-1)); [discriminate|].
    injection Hx as ->. now apply (Hmax r').
Qed.

Lemma filter_key_spec k key x :
  In x (filter (fun c => negb (c =? key)%Z) (map Z.of_nat (seq 0 k))) <->
  (0 <= x < Z.of_nat k /\ x <> key)%Z.
Proof.
  rewrite filter_In, in_map_iff. split.
  - intros [[n [<- Hn]] H]. apply in_seq in Hn. split; lia.
  - intros [H1 H2]. split; [|lia]. exists (Z.to_nat x). split; [lia|]. apply in_seq. lia.
Qed.

Lemma random_col_ok rows cats mc col K key :
  length rows <> 1 -> nth_error cats col = Some (Some K) -> nth_error mc col = Some key ->
  (2 <= K)%Z ->
  random_col rows cats mc col =
    Ok (filter (fun c => negb (c =? key)%Z) (map Z.of_nat (seq 0 (Z.to_nat K)))) /\
  filter (fun c => negb (c =? key)%Z) (map Z.of_nat (seq 0 (Z.to_nat K))) <> [].
Proof.
  intros Hn HK Hkey H2.
  assert (Hne : filter (fun c => negb (c =? key)%Z) (map Z.of_nat (seq 0 (Z.to_nat K))) <> []).
  { intro E. assert (HI : exists x, In x (filter (fun c => negb (c =? key)%Z) (map Z.of_nat (seq 0 (Z.to_nat K))))).
    { destruct (Z.eq_dec key 0).
      - exists 1%Z. apply filter_key_spec. lia.
      - exists 0%Z. apply filter_key_spec. lia. }
    rewrite E in HI. destruct HI as [x []]. }
  split; auto. unfold random_col. rewrite HK, Hkey. unfold incorrect_responses.
  destruct (Z.ltb_spec K 0); [lia|]. cbn [bind].
  destruct (filter _ _) eqn:E; [congruence|].
  destruct rows as [|r [|r2 rows]]; auto. cbn in Hn; lia.
Qed.

Definition incorrect_fill (K : nat -> Z) (key : list Z) (r c : nat) (y : qcell) : Prop :=
  exists k, y = Some (inject_Z k) /\ (0 <= k < K c)%Z /\ nth_error key c <> Some k.

Lemma random_fill_spec draw d cs key (K : nat -> Z) :
  rectangular d -> in_range draw -> length (m_rows d) <> 1 -> length key = m_cols d ->
  (forall c, c < m_cols d -> nth_error cs c = Some (Some (K c))) ->
  (forall c, c < m_cols d -> (2 <= K c)%Z) ->
  exists out, random_fill draw (m_cols d) (map (map m1_to_nan) (m_rows d)) cs key = Ok out /\
    fills d out (incorrect_fill K key).
Proof.
  intros Hr Hd Hn Hk HK H2. unfold random_fill.
  set (inc := fun c => filter (fun x => negb (x =? nth c key 0)%Z) (map Z.of_nat (seq 0 (Z.to_nat (K c))))).
  assert (Hcol : forall c, c < m_cols d ->
     random_col (map (map m1_to_nan) (m_rows d)) cs key c = Ok (inc c) /\ inc c <> []).
  { intros c Hc. apply random_col_ok; auto.
    - now rewrite map_length.
    - apply nth_error_nth_lt. lia. }
  rewrite (mapM_total _ inc).
  2:{ intros c Hc. apply in_seq in Hc. apply Hcol. lia. }
  cbn [bind]. eexists; split; [reflexivity|].
  apply (fills_intro d _ (fun r c x => match x with Some z => Some (inject_Z z)
     | None => let i := nth c (map inc (seq 0 (m_cols d))) [] in
               option_map inject_Z (nth_error i (draw c r (length i))) end)); auto.
  - rewrite mapi_map. apply mapi_ext. intros r row _. now rewrite mapi_map.
  - intros r c x Hx Hm. pose proof (at_col_lt _ _ _ _ Hr Hx) as Hc.
    assert (E : nth c (map inc (seq 0 (m_cols d))) [] = inc c).
    { apply nth_error_nth. now rewrite nth_error_map_seq. }
    rewrite E. cbn zeta. destruct (Hcol c Hc) as [_ Hne].
    assert (Hlt : draw c r (length (inc c)) < length (inc c)).
    { apply Hd. destruct (inc c); [congruence|cbn; lia]. }
    rewrite (nth_error_nth_lt _ _ 0%Z Hlt). cbn.
    pose proof (nth_In _ 0%Z Hlt) as HI.
    set (v := nth (draw c r (length (inc c))) (inc c) 0%Z) in *.
    assert (HI' : (0 <= v < Z.of_nat (Z.to_nat (K c)) /\ v <> nth c key 0)%Z)
      by (apply filter_key_spec; exact HI).
    clear HI; rename HI' into HI.
    eexists; split; [reflexivity|]. specialize (H2 c Hc). split; [lia|].
    rewrite (nth_error_nth_lt key c 0%Z) by lia. destruct HI as [_ HI]. congruence.
Qed.

Lemma impute_random_spec draw d key cats (K : nat -> Z) :
  rectangular d -> in_range draw -> length (m_rows d) <> 1 -> length key = m_cols d ->
  cats_ok d cats K -> (forall c, c < m_cols d -> (2 <= K c)%Z) ->
  exists out, fst (impute_internal draw d IRandomIncorrect (Some key) cats) = Ok out /\
    fills d out (incorrect_fill K key).
Proof.
  intros Hr Hd Hn Hk HK H2. cbn [impute_internal fst].
  destruct cats as [cs|].
  - cbn [bind]. apply random_fill_spec; auto. intros c Hc. rewrite nth_error_map.
    now rewrite (HK c Hc).
  - rewrite (infer_categories_eq d K) by auto. cbn [bind]. apply random_fill_spec; auto.
    intros c Hc. now rewrite nth_error_map_seq.
Qed.

Lemma impute_missing_random_spec draw d key cats (K : nat -> Z) :
  rectangular d -> in_range draw -> length (m_rows d) <> 1 -> length key = m_cols d ->
  cats_ok d cats K -> (forall c, c < m_cols d -> (2 <= K c)%Z) ->
  exists out, fst (impute_missing draw d IRandomIncorrect None (Some key) cats) = Ok out /\
    fills d out (incorrect_fill K key).
Proof. exact (impute_random_spec draw d key cats K). Qed.

(** A single respondent: random-incorrect imputation fails as soon as there are two items. *)
Lemma impute_random_single draw d key cats (K : nat -> Z) :
  rectangular d -> length (m_rows d) = 1 -> 2 <= m_cols d -> length key = m_cols d ->
  cats_ok d cats K -> (forall c, c < m_cols d -> (2 <= K c)%Z) ->
  fst (impute_internal draw d IRandomIncorrect (Some key) cats) = Err IndexError.
Proof.
  intros Hr Hn Hc Hk HK H2. cbn [impute_internal fst].
  assert (HA : forall cs, (forall c, c < m_cols d -> nth_error cs c = Some (Some (K c))) ->
    random_fill draw (m_cols d) (map (map m1_to_nan) (m_rows d)) cs key = Err IndexError).
  { intros cs Hcs. unfold random_fill.
    assert (HB : forall c, c < m_cols d ->
      (exists b, random_col (map (map m1_to_nan) (m_rows d)) cs key c = Ok b) \/
      random_col (map (map m1_to_nan) (m_rows d)) cs key c = Err IndexError).
    { intros c Hcc. destruct (random_col_ok [] cs key c (K c) (nth c key 0%Z)) as [H0 Hne]; auto.
      { apply nth_error_nth_lt; lia. }
      unfold random_col in *. rewrite (Hcs c Hcc) in *.
      destruct (nth_error key c) as [k|]; [|discriminate].
      unfold incorrect_responses in *. destruct (K c <? 0)%Z; [discriminate|]. cbn [bind] in *.
      destruct (filter _ _); [discriminate|].
      destruct (map (map m1_to_nan) (m_rows d)) as [|r0 [|r1 rr]]; eauto.
      destruct ((c =? 0) && is_nan (nth 0 r0 None)); eauto. }
    rewrite (mapM_Err _ _ IndexError); auto.
    - intros c Hcc. apply in_seq in Hcc. apply HB; lia.
    - exists 1. split; [apply in_seq; lia|]. destruct (HB 1) as [[b Hb]|Hb]; auto. exfalso.
      unfold random_col in Hb. rewrite (Hcs 1) in Hb by lia.
      destruct (nth_error key 1) as [k|]; [|discriminate].
      unfold incorrect_responses in Hb. destruct (K 1%nat <? 0)%Z; [discriminate|]. cbn [bind] in Hb.
      destruct (filter _ _); [discriminate|].
      destruct (m_rows d) as [|r0 [|r1 rr]]; try discriminate. }
  destruct cats as [cs|].
  - cbn [bind]. apply HA. intros c Hcc. rewrite nth_error_map. now rewrite (HK c Hcc).
  - rewrite (infer_categories_eq d K) by auto. cbn [bind]. apply HA.
    intros c Hcc. now rewrite nth_error_map_seq.
Qed.

Lemma impute_errors draw d cats mc :
  fst (impute_internal draw d IRandomIncorrect None cats) = Err ValueError /\
  fst (impute_internal draw d IUnknown mc cats) = Err ValueError /\
  fst (impute_missing draw d IRandomIncorrect None None cats) = Err ValueError /\
  fst (impute_missing draw d IUnknown None mc cats) = Err ValueError.
Proof. repeat split. Qed.

Lemma impute_caller draw d m mc cats model :
  snd (impute_internal draw d m mc cats) = d /\ snd (impute_missing draw d m model mc cats) = d.
Proof. split; reflexivity. Qed.

(** With a model given, random-incorrect imputation of a matrix with at least one item never succeeds. *)
Lemma impute_missing_model_fails draw d mi mc cats :
  0 < m_cols d ->
  exists e, fst (impute_missing draw d IRandomIncorrect (Some mi) mc cats) = Err e.
Proof.
  intro Hc. unfold impute_missing; cbn [fst]. destruct (mi_mc mi); eauto.
  destruct (m_cols d); [lia|]. destruct (mi_cats mi); eauto. destruct (z <? 0)%Z; eauto.
Qed.

Lemma impute_missing_mc_model draw d mi key mc cats :
  mi_mc mi = Some key ->
  fst (impute_missing draw d IRandomIncorrect (Some mi) mc cats) = Err ValueError.
Proof. intro H. unfold impute_missing; cbn [fst]. now rewrite H. Qed.

Lemma impute_missing_prior draw d mi mc cats :
  mi_mc mi = None -> length (mi_prior mi) = m_cols d -> rectangular d ->
  exists out, fst (impute_missing draw d IPriorExpected (Some mi) mc cats) = Ok out /\
    fills d out (fun _ c y => y = option_map inject_Z (nth_error (mi_prior mi) c) /\ y <> None).
Proof.
  intros Hm Hl Hr. unfold impute_missing; cbn [fst]. rewrite Hm. eexists; split; [reflexivity|].
  apply (fills_intro d _ (fun _ c x => match x with Some z => Some (inject_Z z)
            | None => option_map inject_Z (nth_error (mi_prior mi) c) end)); auto.
  - rewrite map_map, map_as_mapi. apply mapi_ext. intros r row _. now rewrite mapi_map.
  - intros r c x Hx _. split; auto. pose proof (at_col_lt _ _ _ _ Hr Hx).
    rewrite (nth_error_nth_lt _ c 0%Z) by lia. discriminate.
Qed.

(** *** Category counts *)

Lemma infer_categories_cover d (K : list (option Z)) r c z :
  rectangular d -> infer_categories (m_cols d) (m_rows d) = Ok K ->
  at_ (m_rows d) r c = Some (Some z) ->
  exists k r', nth_error K c = Some (Some k) /\ (z < k)%Z /\ at_ (m_rows d) r' c = Some (Some (k - 1)%Z).
Proof.
  intros Hr HK Hat. pose proof (at_col_lt _ _ _ _ Hr Hat) as Hc. unfold infer_categories in HK.
  destruct (m_rows d) as [|r0 rows0] eqn:E; [discriminate|]. rewrite <- E in *.
  injection HK as <-. rewrite nth_error_map_seq by auto. cbn [Nat.add].
  assert (Hlen : forall row, In row (m_rows d) -> c < length row).
  { intros row Hin. destruct Hr as [_ HF]. rewrite Forall_forall in HF. rewrite HF; auto. }
  pose proof (max_list_spec (observed (col_of c (m_rows d)))) as HM.
  assert (HI : In z (observed (col_of c (m_rows d)))) by (apply in_observed, in_col_of; eauto).
  destruct (max_list _) as [m|].
  - destruct HM as [HM1 HM2]. apply in_observed, in_col_of in HM1; auto. destruct HM1 as [r' HM1].
    exists (m + 1)%Z, r'. split; auto. split; [specialize (HM2 z HI); lia|].
    now replace (m + 1 - 1)%Z with m by lia.
  - rewrite HM in HI. destruct HI.
Qed.

Lemma filter_all {A} (f : A -> bool) l : (forall x, In x l -> f x = true) -> filter f l = l.
Proof.
  induction l as [|a l IH]; intro H; cbn; auto. rewrite (H a (or_introl eq_refl)). f_equal. apply IH.
  intros; apply H; now right.
Qed.

(** Without missing rows the user-facing helper agrees with the constructors' inference. *)
Lemma get_item_categories_complete d K :
  rectangular d -> no_nan d -> get_item_categories d = Ok K -> m_rows d <> [] ->
  infer_categories (m_cols d) (m_rows d) = Ok (map Some K).
Proof.
  intros Hr Hn HK Hne. unfold get_item_categories in HK.
  rewrite filter_all in HK.
  2:{ intros row Hin. apply negb_true_iff. apply not_true_iff_false. intro HE.
      apply existsb_exists in HE as [c [Hc Hc2]]. destruct c; [discriminate|]. now apply (Hn row None). }
  unfold infer_categories. destruct (m_rows d) as [|r0 rows0] eqn:E; [congruence|]. rewrite <- E in *.
  f_equal. apply mapM_Ok in HK. clear - HK. induction HK as [|i k l K HK1 HK2 IH]; cbn; auto.
  destruct (max_list _) as [m|]; [|discriminate]. injection HK1 as <-. cbn. now rewrite IH.
Qed.

(** *** Sum scores *)
Lemma sum_score_key key r :
  length r = length key ->
  sum_score_row (Some key) r =
    Some (Z.of_nat (length (filter (fun i => match nth_error r i, nth_error key i with
                                   | Some (Some z), Some k => (z =? k)%Z
                                   | _, _ => false end) (seq 0 (length r))))).
Proof.
  intro Hl. cbn. do 2 f_equal. revert key Hl; induction r as [|c r IH]; intros [|k key] Hl; cbn in Hl; try lia; auto.
  cbn [zip_with length seq filter nth_error]. rewrite <- seq_shift.
  assert (HF : forall (f : nat -> bool) l, length (filter f (map S l)) = length (filter (fun i => f (S i)) l)).
  { clear. intros f l; induction l; cbn; auto. destruct (f (S a)); cbn; auto. }
  destruct c as [z|]; cbn [cell_eqb].
  - destruct (z =? k)%Z; cbn [length]; rewrite HF; rewrite (IH key) by lia; reflexivity.
  - cbn [length]; rewrite HF; rewrite (IH key) by lia; reflexivity.
Qed.

Lemma sum_score_complete r :
  (forall c, In c r -> ~ Missing c) -> sum_score_row None r = Some (obs_sum r).
Proof.
  induction r as [|c r IH]; intro H; cbn; auto.
  assert (Hc : ~ Missing c) by (apply H; now left).
  destruct c as [z|]; [|exfalso; apply Hc; now left].
  cbn in IH. rewrite IH by (intros; apply H; now right).
  destruct (Z.eqb_spec z (-1)); [exfalso; apply Hc; subst; now right|]. reflexivity.
Qed.

Lemma sum_score_nan r : In None r -> sum_score_row None r = None.
Proof.
  induction r as [|c r IH]; cbn; intro H; [destruct H|]. destruct H as [->|H]; auto.
  cbn in IH. rewrite IH by auto. destruct c; auto.
Qed.

(** Lists too short for the items. *)
Lemma random_fill_short draw cols rows cs key : Forall (fun K => exists k, K = Some k /\ (2 <= k)%Z) cs -> length cs < cols \/ length key < cols ->
  random_fill draw cols rows cs key = Err IndexError.
Proof.
  intros HF Hs. unfold random_fill. rewrite (mapM_Err _ _ IndexError); [reflexivity| |].
  - intros c _. unfold random_col. destruct (nth_error cs c) as [K|] eqn:EK; [|now right]. destruct (nth_error key c) as [k|] eqn:Ek; [|now right].
    rewrite Forall_forall in HF. destruct (HF K (nth_error_In _ _ EK)) as (z & -> & Hz).
    destruct (random_col_ok [] [Some z] [k] 0 z k) as [E Hne]; auto. unfold incorrect_responses. destruct (Z.ltb_spec z 0); [lia|]. cbn [bind].
    destruct (filter _ _) as [|a l]; [congruence|]. destruct rows as [|r [|r2 rows]]; [left; eauto| |left; eauto]. destruct ((c =? 0) && is_nan (nth 0 r None)); [left; eauto|now right].
  - exists (min (length cs) (length key)). split; [apply in_seq; lia|]. unfold random_col.
    destruct (nth_error cs (min (length cs) (length key))) eqn:E1; [|reflexivity]. destruct (nth_error key (min (length cs) (length key))) eqn:E2; [|reflexivity].
    assert (min (length cs) (length key) < length cs) by (apply nth_error_Some; congruence). assert (min (length cs) (length key) < length key) by (apply nth_error_Some; congruence). lia.
Qed.
