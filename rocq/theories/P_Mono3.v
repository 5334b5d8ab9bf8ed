(** Proofs: separation of groups, construction of softplus layers. *)
From Verif Require Import Base BaseFacts RBase RFacts M_Logit S_Logit P_Logit P_Logit2 M_Mono S_Mono P_Mono1 P_Mono2.

(** ** separate_weights *)
Lemma at2_mapi {A B} (f : nat -> list A -> list B) w o i :
  at2 (mapi f w) o i = match nth_error w o with Some r => nth_error (f o r) i | None => None end.
Proof. unfold at2. rewrite nth_error_mapi. destruct (nth_error w o); reflexivity. Qed.
Lemma set_block_at ii ig oi og w o i :
  at2 (set_block ii ig oi og w) o i =
  option_map (fun b : bool => (in_slice oi og o && in_slice ii ig i) || b) (at2 w o i).
Proof.
  unfold set_block. rewrite at2_mapi. unfold at2. destruct (nth_error w o) as [row|]; [|reflexivity].
  destruct (in_slice oi og o); cbn [andb orb].
  - rewrite nth_error_mapi. destruct (nth_error row i) as [b|]; [|reflexivity]. cbn [option_map].
    destruct (in_slice ii ig i); reflexivity.
  - destruct (nth_error row i); reflexivity.
Qed.
Definition block_hits (o i : nat) (b : nat * nat * nat * nat) : bool :=
  let '(ig, og, ii, oi) := b in in_slice oi og o && in_slice ii ig i.
Lemma fold_blocks_at gs w o i :
  at2 (fold_left (fun w '(ig, og, ii, oi) => set_block ii ig oi og w) gs w) o i =
  option_map (fun b : bool => existsb (block_hits o i) gs || b) (at2 w o i).
Proof.
  revert w. induction gs as [|[[[ig og] ii] oi] gs IH]; intro w; cbn [fold_left existsb block_hits].
  - destruct (at2 w o i); reflexivity.
  - rewrite IH, set_block_at. destruct (at2 w o i) as [b|]; [|reflexivity]. cbn [option_map]. f_equal.
    rewrite <- !orb_assoc. rewrite (orb_comm (existsb _ _)), <- orb_assoc. f_equal. apply orb_comm.
Qed.
Lemma cumsum_from_nth acc l g : g < length l -> nth_error (cumsum_from acc l) g = Some (acc + offset l (S g)).
Proof.
  revert acc g. induction l as [|x l IH]; intros acc g H; [cbn in H; lia|].
  destruct g as [|g]; cbn [cumsum_from nth_error].
  - rewrite offset_S. unfold offset. cbn. f_equal. lia.
  - rewrite IH by (cbn [length] in H; lia). rewrite (offset_S x). f_equal. lia.
Qed.
Lemma cumsum_length l acc : length (cumsum_from acc l) = length l.
Proof. revert acc. induction l; cbn; auto. Qed.
Lemma offset_next l g s : nth_error l g = Some s -> offset l (S g) = offset l g + s.
Proof.
  revert g. induction l as [|x l IH]; intros [|g] H; try discriminate.
  - injection H as ->. rewrite offset_S. unfold offset. cbn. lia.
  - cbn in H. rewrite !(offset_S x). rewrite (IH _ H). lia.
Qed.
Lemma starts_nth l g s : nth_error l g = Some s ->
  nth_error (zip_with Nat.sub (cumsum l) l) g = Some (offset l g).
Proof.
  intro H. assert (g < length l) by (apply nth_error_Some; congruence).
  rewrite nth_error_zip_with, H. unfold cumsum. rewrite cumsum_from_nth by auto. f_equal.
  rewrite (offset_next _ _ _ H). lia.
Qed.
Lemma zip4_nth {A B C D} (a : list A) (b : list B) (c : list C) (d : list D) g :
  nth_error (zip4 a b c d) g =
  match nth_error a g, nth_error b g, nth_error c g, nth_error d g with
  | Some x, Some y, Some z, Some w => Some (x, y, z, w) | _, _, _, _ => None end.
Proof.
  revert b c d g. induction a as [|x a IH]; intros [|y b] [|z c] [|w d] [|g]; cbn; auto;
    repeat match goal with |- context [match ?e with _ => _ end] => destruct e end; auto.
Qed.
Lemma offset_mono l g h : g <= h -> offset l g <= offset l h.
Proof.
  revert g h. induction l as [|x l IH]; intros g h H.
  - unfold offset. destruct g, h; cbn; lia.
  - destruct g as [|g]; [unfold offset; cbn; lia|]. destruct h as [|h]; [lia|]. rewrite !offset_S.
    pose proof (IH g h ltac:(lia)). lia.
Qed.
Lemma slice_unique l g h s s' o : nth_error l g = Some s -> nth_error l h = Some s' ->
  offset l g <= o < offset l g + s -> offset l h <= o < offset l h + s' -> g = h.
Proof.
  intros Hg Hh H H'. pose proof (offset_next _ _ _ Hg). pose proof (offset_next _ _ _ Hh).
  destruct (Nat.lt_trichotomy g h) as [L|[L|L]]; auto.
  - pose proof (offset_mono l (S g) h ltac:(lia)). lia.
  - pose proof (offset_mono l (S h) g ltac:(lia)). lia.
Qed.
Lemma in_slice_spec s n i : in_slice s n i = true <-> s <= i < s + n.
Proof. unfold in_slice. rewrite andb_true_iff, Nat.leb_le, Nat.ltb_lt. tauto. Qed.

(** Output [o] of group [g] is connected exactly to the inputs of group [g]. *)
Lemma separate_weights_spec n_in n_out sin sout g ig og o i :
  nth_error sin g = Some ig -> nth_error sout g = Some og ->
  offset sout g <= o < offset sout g + og -> o < n_out -> i < n_in ->
  at2 (separate_weights n_in n_out sin sout) o i = Some (in_slice (offset sin g) ig i).
Proof.
  intros Hi Ho Hro Hon Hin. unfold separate_weights. rewrite fold_blocks_at.
  unfold at2. rewrite nth_error_repeat_lt, nth_error_repeat_lt by auto. cbn [option_map]. f_equal.
  rewrite orb_false_r. apply eq_true_iff_eq. rewrite existsb_exists. split.
  - intros (b & Hb & Hh). apply In_nth_error in Hb as (h & Hh'). rewrite zip4_nth in Hh'.
    destruct (nth_error sin h) as [ig'|] eqn:E1; [|discriminate].
    destruct (nth_error sout h) as [og'|] eqn:E2; [|discriminate].
    rewrite (starts_nth _ _ _ E1), (starts_nth _ _ _ E2) in Hh'. injection Hh' as <-.
    unfold block_hits in Hh. apply andb_true_iff in Hh as [H1 H2]. apply in_slice_spec in H1.
    pose proof (slice_unique sout g h og og' o Ho E2 Hro H1) as <-. congruence.
  - intro H. exists (ig, og, offset sin g, offset sout g). split.
    + apply nth_error_In with g. rewrite zip4_nth, Hi, Ho.
      now rewrite (starts_nth _ _ _ Hi), (starts_nth _ _ _ Ho).
    + unfold block_hits. rewrite H, andb_true_r. now apply in_slice_spec.
Qed.
Lemma fold_blocks_shape gs w n : Forall (fun r => length r = n) w ->
  length (fold_left (fun w '(ig, og, ii, oi) => set_block ii ig oi og w) gs w) = length w /\
  Forall (fun r => length r = n) (fold_left (fun w '(ig, og, ii, oi) => set_block ii ig oi og w) gs w).
Proof.
  revert w. induction gs as [|[[[ig og] ii] oi] gs IH]; intros w H; cbn [fold_left]; auto.
  assert (HF : Forall (fun r => length r = n) (set_block ii ig oi og w)).
  { apply Forall_forall. intros r Hr. apply In_nth_error in Hr as (k & Hk). unfold set_block in Hk.
    rewrite nth_error_mapi in Hk. destruct (nth_error w k) as [row|] eqn:E; [|discriminate].
    cbn [option_map] in Hk. injection Hk as <-.
    rewrite Forall_forall in H. pose proof (H _ (nth_error_In _ _ E)).
    destruct (in_slice oi og k); [now rewrite mapi_length|auto]. }
  destruct (IH _ HF) as [H1 H2]. split; auto. rewrite H1. unfold set_block. apply mapi_length.
Qed.
Lemma even_groups_sum n g : 0 < g -> list_sum (even_groups n g) = n /\ length (even_groups n g) = g.
Proof.
  intro Hg. unfold even_groups. rewrite list_sum_app, app_length, !repeat_length.
  assert (S : forall x k, list_sum (repeat x k) = k * x).
  { intros x k. induction k as [|k IH]; [reflexivity|]. cbn [repeat]. unfold list_sum in *. cbn [fold_right]. rewrite IH. lia. }
  rewrite !S. pose proof (Nat.div_mod n g ltac:(lia)). pose proof (Nat.mod_upper_bound n g ltac:(lia)). nia.
Qed.

(** ** Construction of a layer *)
Definition layer_mask (n_in n_out : nat) (groups : option (list nat * list nat)) : list (list bool) :=
  match groups with Some (si, so) => separate_weights n_in n_out si so | None => repeat (repeat true n_in) n_out end.
Lemma layer_mask_shape n_in n_out gs :
  length (layer_mask n_in n_out gs) = n_out /\ Forall (fun r => length r = n_in) (layer_mask n_in n_out gs).
Proof.
  assert (H : forall b, Forall (fun r : list bool => length r = n_in) (repeat (repeat b n_in) n_out)).
  { intro b. apply Forall_forall. intros r Hr. apply repeat_spec in Hr. subst. apply repeat_length. }
  destruct gs as [[si so]|]; cbn [layer_mask].
  - unfold separate_weights. destruct (fold_blocks_shape (zip4 si so (zip_with Nat.sub (cumsum si) si) (zip_with Nat.sub (cumsum so) so)) _ _ (H false)) as [H1 H2].
    rewrite repeat_length in H1. auto.
  - rewrite repeat_length. auto.
Qed.
(** What the constructor builds. *)
Lemma spl_init_ok n_in n_out sin sout zin zout sp m :
  spl_init n_in n_out sin sout zin zout sp = Ok m ->
  exists gs, sl_in m = n_in /\ sl_out m = n_out /\ sl_softplus m = sp /\
    sl_zero_out m = (match zout with Some z => z | None => repeat false n_out end) /\
    sl_free m = map (fun row => set_mask (match zin with Some z => z | None => repeat false n_in end) false row)
      (zip_with (fun (z : bool) row => if z then map (fun _ => false) row else row) (sl_zero_out m) (layer_mask n_in n_out gs)) /\
    length (sl_raw m) = ctrue (concat (sl_free m)) /\ length (sl_bias m) = ctrue (map negb (sl_zero_out m)) /\
    match sin with
    | None => gs = None /\ sout = None
    | Some si => list_sum si = n_in /\ exists so, gs = Some (si, so) /\ list_sum so = n_out /\
        match sout with Some s => so = s | None => si <> [] /\ so = even_groups n_out (length si) end
    end.
Proof.
  unfold spl_init. destruct sin as [si|].
  - destruct (negb (list_sum si =? n_in)) eqn:E1; [discriminate|]. apply negb_false_iff, Nat.eqb_eq in E1.
    destruct sout as [so|].
    + destruct (negb (list_sum so =? n_out)) eqn:E2; [discriminate|]. apply negb_false_iff, Nat.eqb_eq in E2.
      cbn [bind]. intro H. injection H as <-. exists (Some (si, so)). cbn.
      repeat split; auto; try apply repeat_length. exists so. auto.
    + destruct si as [|s si]; [discriminate|]. set (l := s :: si) in *.
      destruct (negb (list_sum (even_groups n_out (length l)) =? n_out)) eqn:E2; [discriminate|]. apply negb_false_iff, Nat.eqb_eq in E2.
      cbn [bind]. intro H. injection H as <-. exists (Some (l, even_groups n_out (length l))). cbn.
      repeat split; auto; try apply repeat_length. eexists; split; [reflexivity|]. split; auto. split; auto. discriminate.
  - destruct sout as [so|]; [discriminate|]. cbn [bind]. intro H. injection H as <-. exists None. cbn.
    repeat split; auto; apply repeat_length.
Qed.
Lemma nth_error_layer_row n_in n_out gs zin zout o :
  length zout = n_out -> o < n_out ->
  nth_error (map (fun row => set_mask zin false row)
     (zip_with (fun (z : bool) row => if z then map (fun _ => false) row else row) zout (layer_mask n_in n_out gs))) o =
  Some (set_mask zin false (if nth o zout false then map (fun _ => false) (nth o (layer_mask n_in n_out gs) [])
                            else nth o (layer_mask n_in n_out gs) [])).
Proof.
  intros Hz Ho. destruct (layer_mask_shape n_in n_out gs) as [Hl _].
  rewrite nth_error_map, nth_error_zip_with.
  rewrite (nth_error_nth_lt zout o false), (nth_error_nth_lt (layer_mask n_in n_out gs) o []) by lia. reflexivity.
Qed.
Lemma spl_init_wf n_in n_out sin sout zin zout m :
  spl_init n_in n_out sin sout zin zout true = Ok m -> 0 < n_in ->
  (forall z, zin = Some z -> length z = n_in) -> (forall z, zout = Some z -> length z = n_out) ->
  spl_wf m /\ sl_in m = n_in /\ sl_out m = n_out.
Proof.
  intros H Hin Hzi Hzo. destruct (spl_init_ok _ _ _ _ _ _ _ _ H) as (gs & H1 & H2 & H3 & H4 & H5 & H6 & H7 & _).
  destruct (layer_mask_shape n_in n_out gs) as [Hl HF].
  assert (Hz : length (sl_zero_out m) = n_out).
  { rewrite H4. destruct zout; [auto|apply repeat_length]. }
  split; [|auto]. unfold spl_wf. rewrite H1, H2. split; [auto|]. split; [auto|].
  assert (Hfl : length (sl_free m) = n_out).
  { rewrite H5, map_length, zip_with_length. lia. }
  split; [auto|]. split; [|auto].
  apply Forall_forall. intros r Hr. apply In_nth_error in Hr as (o & Ho).
  assert (Hlt : o < n_out) by (rewrite <- Hfl; apply nth_error_Some; congruence).
  rewrite H5 in Ho. rewrite nth_error_layer_row in Ho by auto. injection Ho as <-.
  assert (Hrow : length (nth o (layer_mask n_in n_out gs) []) = n_in).
  { rewrite Forall_forall in HF. apply HF. apply nth_In. lia. }
  rewrite set_mask_length; destruct (nth o (sl_zero_out m) false); rewrite ?map_length, ?Hrow; auto;
    destruct zin; auto using repeat_length.
Qed.
(** Connections in terms of the groups and the switched off units. *)
Lemma spl_free_at n_in n_out sin sout zin zout sp m o i :
  spl_init n_in n_out sin sout zin zout sp = Ok m ->
  (forall z, zin = Some z -> length z = n_in) -> (forall z, zout = Some z -> length z = n_out) ->
  o < n_out -> i < n_in ->
  nth i (nth o (sl_free m) []) false =
    (negb (nth o (sl_zero_out m) false) && negb (match zin with Some z => nth i z false | None => false end) &&
     match sin with
     | None => true
     | Some si => match at2 (separate_weights n_in n_out si
                       (match sout with Some so => so | None => even_groups n_out (length si) end)) o i with Some b => b | None => false end
     end)%bool.
Proof.
  intros H Hzi Hzo Ho Hi. destruct (spl_init_ok _ _ _ _ _ _ _ _ H) as (gs & H1 & H2 & H3 & H4 & H5 & H6 & H7 & H8).
  destruct (layer_mask_shape n_in n_out gs) as [Hl HF].
  assert (Hz : length (sl_zero_out m) = n_out).
  { rewrite H4. destruct zout; [auto|apply repeat_length]. }
  assert (Hrow : length (nth o (layer_mask n_in n_out gs) []) = n_in).
  { rewrite Forall_forall in HF. apply HF. apply nth_In. lia. }
  pose proof (nth_error_layer_row n_in n_out gs (match zin with Some z => z | None => repeat false n_in end) _ o Hz Ho) as E.
  rewrite <- H5 in E. rewrite (nth_error_nth _ _ [] E).
  set (zi := match zin with Some z => z | None => repeat false n_in end).
  assert (Hzl : length zi = n_in) by (unfold zi; destruct zin; auto using repeat_length).
  assert (Hzn : nth i zi false = match zin with Some z => nth i z false | None => false end).
  { unfold zi. destruct zin; auto. apply nth_repeat. }
  rewrite <- Hzn.
  set (row := if nth o (sl_zero_out m) false then _ else _).
  assert (Hr : length row = n_in) by (unfold row; destruct (nth o (sl_zero_out m) false); rewrite ?map_length; auto).
  erewrite nth_error_nth; [|rewrite (nth_error_set_mask _ _ _ i (nth i zi false)) by (apply nth_error_nth_lt; lia);
    rewrite (nth_error_nth_lt row i false) by lia; cbn [option_map]; 
    instantiate (1 := if nth i zi false then false else nth i row false); destruct (nth i zi false); reflexivity].
  assert (Hm : nth i (nth o (layer_mask n_in n_out gs) []) false =
     match sin with
     | None => true
     | Some si => match at2 (separate_weights n_in n_out si
                       (match sout with Some so => so | None => even_groups n_out (length si) end)) o i with Some b => b | None => false end
     end).
  { destruct sin as [si|].
    - destruct H8 as (_ & so & -> & _ & Hso). cbn [layer_mask] in *.
      replace (match sout with Some so => so | None => even_groups n_out (length si) end) with so
        by (destruct sout; [exact Hso|exact (proj2 Hso)]).
      unfold at2. rewrite (nth_error_nth_lt _ o []) by lia. rewrite (nth_error_nth_lt _ i false) by lia. reflexivity.
    - destruct H8 as (-> & _). cbn [layer_mask]. rewrite (nth_error_nth _ _ [] (nth_error_repeat_lt (repeat true n_in) n_out o Ho)).
      exact (nth_error_nth _ _ false (nth_error_repeat_lt true n_in i Hi)). }
  rewrite <- Hm. unfold row. destruct (nth o (sl_zero_out m) false); cbn [negb andb].
  - assert (Hmf : nth i (map (fun _ : bool => false) (nth o (layer_mask n_in n_out gs) [])) false = false).
    { exact (map_nth (fun _ => false) (nth o (layer_mask n_in n_out gs) []) false i). }
    rewrite Hmf. destruct (nth i zi false); reflexivity.
  - destruct (nth i zi false); reflexivity.
Qed.

Lemma spl_zero_out_init n_in n_out sin sout zin zout sp m : spl_init n_in n_out sin sout zin zout sp = Ok m ->
  sl_zero_out m = match zout with Some z => z | None => repeat false n_out end.
Proof. intro H. destruct (spl_init_ok _ _ _ _ _ _ _ _ H) as (gs & H1 & H2 & H3 & H4 & _). exact H4. Qed.
