(** Lemmas about ModelMix. *)
From Verif Require Import Base BaseFacts RBase RFacts M_Data M_Logit S_Logit P_Logit P_Logit3 M_Lik S_Lik P_Lik1 P_Lik2.
Local Open Scope R_scope.

(** ** Lists *)
Lemma mapM_index {A B} (f : A -> result B) (g : nat -> B) : forall l s,
  (forall k a, nth_error l k = Some a -> f a = Ok (g (s + k)%nat)) -> mapM f l = Ok (map g (seq s (length l))).
Proof.
  induction l as [|a l IH]; intros s H; [reflexivity|]. cbn [mapM length seq map].
  rewrite (H O a eq_refl). cbn [bind]. rewrite (IH (S s)).
  - cbn [bind]. now rewrite Nat.add_0_r.
  - intros k b Hk. rewrite (H (S k) b Hk). do 2 f_equal. lia.
Qed.
Lemma combine_nth_error {A B} : forall (l : list A) (r : list B) k a b,
  nth_error (combine l r) k = Some (a, b) -> nth_error l k = Some a /\ nth_error r k = Some b.
Proof.
  induction l as [|x l IH]; intros [|y r] [|k] a b H; cbn in *; try discriminate.
  - injection H as <- <-. auto.
  - now apply IH.
Qed.
Lemma concat_part {A} (ls : list (list A)) k l : nth_error ls k = Some l ->
  firstn (length l) (skipn (offset (map (@length A) ls) k) (concat ls)) = l.
Proof.
  revert k; induction ls as [|l0 ls IH]; intros [|k] H; cbn in H; try discriminate.
  - injection H as ->. cbn [map concat]. unfold offset. cbn [firstn list_sum fold_right skipn].
    now rewrite firstn_app, firstn_all, Nat.sub_diag, firstn_O, app_nil_r.
  - cbn [map concat]. rewrite offset_S, skipn_app.
    rewrite (skipn_all2 l0) by lia. cbn [app].
    replace (length l0 + offset (map (length (A:=A)) ls) k - length l0)%nat with (offset (map (length (A:=A)) ls) k) by lia.
    now apply IH.
Qed.
Lemma sumn_list_sum ns f : sumn (list_sum ns) f =
  sumn (length ns) (fun k => sumn (nth k ns O) (fun j => f (offset ns k + j)%nat)).
Proof.
  revert f; induction ns as [|a ns IH]; intro f; [reflexivity|].
  cbn [length]. rewrite sumn_S_first. unfold list_sum at 1; cbn [fold_right]. fold (list_sum ns).
  rewrite sumn_split, IH. f_equal. apply sumn_ext; intros k Hk. cbn [nth]. apply sumn_ext; intros j Hj.
  rewrite offset_S. f_equal. lia.
Qed.
Lemma list_sum_position ns p : (p < list_sum ns)%nat -> exists k I j, nth_error ns k = Some I /\ (j < I)%nat /\ p = (offset ns k + j)%nat.
Proof.
  revert p; induction ns as [|a ns IH]; intros p Hp; [cbn in Hp; lia|].
  change (list_sum (a :: ns)) with (a + list_sum ns)%nat in Hp. destruct (Nat.lt_ge_cases p a) as [H|H].
  - exists O, a, p. cbn. auto.
  - destruct (IH (p - a)%nat ltac:(lia)) as (k & I & j & E & Hj & Ep). exists (S k), I, j.
    rewrite offset_S. cbn. repeat split; auto. lia.
Qed.
Lemma offset_bound ns k I j : nth_error ns k = Some I -> (j < I)%nat -> (offset ns k + j < list_sum ns)%nat.
Proof.
  revert k; induction ns as [|a ns IH]; intros [|k] H Hj; cbn in H; try discriminate.
  - injection H as ->. change (list_sum (I :: ns)) with (I + list_sum ns)%nat. unfold offset. cbn. lia.
  - rewrite offset_S. specialize (IH k H Hj). change (list_sum (a :: ns)) with (a + list_sum ns)%nat. lia.
Qed.
Lemma fsum_fin l : fsum (map (fun x => Some (Fin x)) l) = Some (Fin (rsum l)).
Proof. induction l as [|x l IH]; [reflexivity|]. cbn [map fsum fold_right rsum]. fold (fsum (map (fun x => Some (Fin x)) l)). now rewrite IH. Qed.

(** ** Row-wise concatenation and splitting *)
Lemma glue_all_length {A} (ls : list (list (list A))) acc N : length acc = N -> Forall (fun l => length l = N) ls ->
  length (fold_left glue ls acc) = N.
Proof.
  revert acc; induction ls as [|l ls IH]; intros acc Ha HF; cbn [fold_left]; [auto|].
  inversion HF; subst. apply IH; auto. unfold glue. rewrite zip_with_length. lia.
Qed.
Lemma glue_all_nth {A} (ls : list (list (list A))) acc N n : length acc = N -> Forall (fun l => length l = N) ls -> (n < N)%nat ->
  nth_error (fold_left glue ls acc) n = Some (nth n acc [] ++ concat (map (fun l => nth n l []) ls)).
Proof.
  revert acc; induction ls as [|l ls IH]; intros acc Ha HF Hn; cbn [fold_left map concat].
  - rewrite app_nil_r. apply nth_error_nth_lt. lia.
  - inversion HF as [|? ? Hl HF']; subst. rewrite IH; auto.
    + f_equal. rewrite app_assoc. f_equal. apply nth_error_nth. unfold glue. rewrite nth_error_zip_with.
      rewrite (nth_error_nth_lt acc n []) by lia. now rewrite (nth_error_nth_lt l n []) by lia.
    + unfold glue. rewrite zip_with_length. lia.
Qed.
Lemma split_cols_length {A} sizes (rows : list (list A)) : length (split_cols sizes rows) = length sizes.
Proof. revert rows; induction sizes as [|s ss IH]; intro rows; cbn; auto. Qed.
Lemma split_cols_nth {A} sizes : forall (rows : list (list A)) k s, nth_error sizes k = Some s ->
  nth_error (split_cols sizes rows) k = Some (Wide s (columns (offset sizes k) s rows)).
Proof.
  induction sizes as [|s0 ss IH]; intros rows [|k] s H; cbn in H; try discriminate.
  - injection H as ->. reflexivity.
  - cbn [split_cols nth_error]. rewrite (IH _ k s H). f_equal. f_equal. unfold columns. rewrite map_map.
    apply map_ext. intro r. rewrite offset_S, skipn_skipn_add. reflexivity.
Qed.
Lemma columns_rect {A} lo k N W (rows : list (list A)) : rect N W rows -> (lo + k <= W)%nat -> rect N k (columns lo k rows).
Proof.
  intros [H1 H2] Hle. split; [now unfold columns; rewrite map_length|]. unfold columns. apply Forall_forall.
  intros r Hr. apply in_map_iff in Hr as [r0 [<- Hin]]. rewrite Forall_forall in H2. specialize (H2 r0 Hin).
  rewrite firstn_length, skipn_length. lia.
Qed.
Lemma columns_at2 {A} lo k (rows : list (list A)) n j : (j < k)%nat -> at2 (columns lo k rows) n j = at2 rows n (lo + j).
Proof.
  intro Hj. unfold at2, columns. rewrite nth_error_map. destruct (nth_error rows n); cbn [option_map]; [|reflexivity].
  now rewrite nth_error_firstn_lt, nth_error_skipn_add by auto.
Qed.
(** The k-th block of columns of the glued rows is the k-th piece. *)
Lemma columns_glue {A} (l0 : list (list A)) ls N ws k w rows : 
  rect N w (nth k (l0 :: ls) []) -> Forall (fun l => length l = N) (l0 :: ls) ->
  (forall i l, nth_error (l0 :: ls) i = Some l -> exists w, nth_error ws i = Some w /\ rect N w l) ->
  length ws = length (l0 :: ls) -> nth_error ws k = Some w -> nth_error (l0 :: ls) k = Some rows ->
  columns (offset ws k) w (fold_left glue ls l0) = rows.
Proof.
  intros Hr HF Hall Hlw Hw Hk. inversion HF as [|? ? H0 HF']; subst.
  set (N := length l0) in *.
  apply nth_error_ext; intro n. unfold columns. rewrite nth_error_map.
  assert (Hrows : rect N w rows) by (erewrite nth_error_nth in Hr by exact Hk; exact Hr).
  destruct (Nat.lt_ge_cases n N) as [Hn|Hn].
  - rewrite (glue_all_nth ls l0 N n) by auto. cbn [option_map].
    set (parts := map (fun l => nth n l []) (l0 :: ls)).
    change (nth n l0 [] ++ concat (map (fun l => nth n l []) ls)) with (concat parts).
    assert (Hlens : map (@length A) parts = ws).
    { apply nth_error_ext; intro i. unfold parts. rewrite map_map, nth_error_map.
      destruct (nth_error (l0 :: ls) i) as [l|] eqn:E; cbn [option_map].
      - destruct (Hall i l E) as (w' & E' & [Hl1 Hl2]). rewrite E'. f_equal.
        rewrite Forall_forall in Hl2. apply Hl2. apply nth_In. lia.
      - symmetry. apply nth_error_None. rewrite Hlw. now apply nth_error_None. }
    assert (Hpk : nth_error parts k = Some (nth n rows [])) by (unfold parts; rewrite nth_error_map, Hk; reflexivity).
    assert (Hlk : length (nth n rows []) = w).
    { destruct Hrows as [Hr1 Hr2]. rewrite Forall_forall in Hr2. apply Hr2. apply nth_In. lia. }
    rewrite <- Hlens, <- Hlk. rewrite (concat_part parts k _ Hpk). symmetry. apply nth_error_nth_lt. destruct Hrows; lia.
  - replace (nth_error (fold_left glue ls l0) n) with (@None (list A)).
    + cbn. symmetry. apply nth_error_None. destruct Hrows; lia.
    + symmetry. apply nth_error_None. rewrite (glue_all_length ls l0 N); auto.
Qed.
