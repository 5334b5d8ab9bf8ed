(** Lemmas for fitting several models in a pool. *)
From Verif Require Import Base BaseFacts M_Multi S_Multi.
Import List.

Lemma chunk_size_one n p : 0 < n -> n <= 4 * p -> chunk_size n p = 1.
Proof.
  intros H1 H2. unfold chunk_size. destruct (Nat.eq_dec n (4 * p)) as [E|E].
  - rewrite <- E, Nat.div_same, Nat.mod_same by lia. reflexivity.
  - rewrite Nat.div_small, Nat.mod_small by lia. destruct n; [lia|reflexivity].
Qed.
Lemma chunk_size_pos n p : 0 < n -> 0 < p -> 0 < chunk_size n p.
Proof.
  intros H1 H2. unfold chunk_size. destruct (Nat.eqb_spec (n mod (4 * p)) 0) as [E|E]; [|lia]. pose proof (Nat.div_mod n (4 * p) ltac:(lia)). destruct (n / (4 * p)); lia.
Qed.
Lemma chunk_size_two n p : 0 < p -> 4 * p < n -> 2 <= chunk_size n p.
Proof.
  intros H1 H2. unfold chunk_size. pose proof (Nat.div_mod n (4 * p) ltac:(lia)) as H. pose proof (Nat.mod_upper_bound n (4 * p) ltac:(lia)).
  destruct (Nat.eqb_spec (n mod (4 * p)) 0) as [E|E]; destruct (n / (4 * p)) as [|[|q]]; lia.
Qed.
Lemma chunk_size_le n p : 0 < p -> chunk_size n p <= n.
Proof.
  intros H1. unfold chunk_size. pose proof (Nat.div_mod n (4 * p) ltac:(lia)) as H. destruct (Nat.eqb_spec (n mod (4 * p)) 0) as [E|E]; nia.
Qed.

Section multi.
Context {M A D : Type}.
Variable fit : M -> A -> D -> result (M * A).
Implicit Types h w : heap M A.

Lemma fit_model_sizes data kw h m h' : fit_model fit data kw h m = Ok h' -> length (h_models h') = length (h_models h) /\ length (h_algorithms h') = length (h_algorithms h).
Proof.
  unfold fit_model. destruct (kw_device kw); [discriminate|]. destruct (kw_algorithm kw) as [a|]; [|discriminate]. destruct (nth_error (h_models h) m) as [[x o]|]; [|discriminate]. destruct (nth_error (h_algorithms h) a) as [al|]; [|discriminate].
  destruct (fit x al data) as [ma|e]; [|discriminate]. cbn [bind]. intro E. injection E as <-. cbn [h_models h_algorithms]. now rewrite !upd_length.
Qed.
Lemma run_chunk_sizes data kw : forall chunk h h', run_chunk fit data kw h chunk = Ok h' -> length (h_models h') = length (h_models h) /\ length (h_algorithms h') = length (h_algorithms h).
Proof.
  induction chunk as [|m chunk IH]; intros h h'; cbn [run_chunk]; [intro E; now injection E as <-|]. destruct (fit_model fit data kw h m) as [h1|e] eqn:E1; [|discriminate]. cbn [bind]. intro E.
  destruct (IH _ _ E), (fit_model_sizes _ _ _ _ _ E1). split; congruence.
Qed.

(** Receiving the results. *)
Lemma receive_all_keeps : forall outs h, (forall i x, nth_error (h_models h) i = Some x -> nth_error (h_models (snd (receive_all h outs))) i = Some x) /\
  (forall i x, nth_error (h_algorithms h) i = Some x -> nth_error (h_algorithms (snd (receive_all h outs))) i = Some x).
Proof.
  induction outs as [|[c w] outs IH]; intro h; cbn [receive_all snd]; [now split|]. destruct (IH (receive h w)) as [H1 H2].
  split; intros i x H; [apply H1|apply H2]; unfold receive; cbn [h_models h_algorithms]; (rewrite nth_error_app1; [exact H|apply nth_error_Some; congruence]).
Qed.
Lemma receive_all_nth nm na : forall outs h, Forall (fun cw : list nat * heap M A => length (h_models (snd cw)) = nm /\ length (h_algorithms (snd cw)) = na) outs ->
  forall k c w, nth_error outs k = Some (c, w) ->
  (forall m mo, nth_error (h_models w) m = Some mo ->
     nth_error (h_models (snd (receive_all h outs))) (length (h_models h) + k * nm + m) = Some (fst mo, option_map (fun a => length (h_algorithms h) + k * na + a) (snd mo))) /\
  (forall a al, nth_error (h_algorithms w) a = Some al -> nth_error (h_algorithms (snd (receive_all h outs))) (length (h_algorithms h) + k * na + a) = Some al).
Proof.
  induction outs as [|[c0 w0] outs IH]; intros h HF k c w Hk; [destruct k; discriminate|]. inversion HF as [|? ? [S1 S2] HF']. subst. cbn [snd] in *. cbn [receive_all snd]. destruct k as [|k].
  - injection Hk as <- <-. destruct (receive_all_keeps outs (receive h w0)) as [K1 K2]. split.
    + intros m mo Hm. apply K1. unfold receive; cbn [h_models]. rewrite nth_error_app2 by lia. replace (length (h_models h) + 0 * length (h_models w0) + m - length (h_models h)) with m by lia. rewrite nth_error_map, Hm. cbn [option_map]. f_equal. f_equal. now rewrite Nat.mul_0_l, Nat.add_0_r.
    + intros a al Ha. apply K2. unfold receive; cbn [h_algorithms]. rewrite nth_error_app2 by lia. now replace (length (h_algorithms h) + 0 * length (h_algorithms w0) + a - length (h_algorithms h)) with a by lia.
  - cbn [nth_error] in Hk.
    assert (Lm : length (h_models (receive h w0)) = length (h_models h) + length (h_models w0)) by (unfold receive; cbn [h_models]; now rewrite app_length, map_length).
    assert (La : length (h_algorithms (receive h w0)) = length (h_algorithms h) + length (h_algorithms w0)) by (unfold receive; cbn [h_algorithms]; now rewrite app_length).
    split.
    + intros m mo Hm. destruct (IH (receive h w0) HF' k c w Hk) as [Q _]. specialize (Q m mo Hm). rewrite Lm, La in Q. replace (length (h_models h) + S k * length (h_models w0) + m) with (length (h_models h) + length (h_models w0) + k * length (h_models w0) + m) by lia. rewrite Q. f_equal. f_equal. destruct (snd mo); [|reflexivity]. cbn [option_map]. f_equal. lia.
    + intros a al Ha. destruct (IH (receive h w0) HF' k c w Hk) as [_ Q]. specialize (Q a al Ha). rewrite La in Q. now replace (length (h_algorithms h) + S k * length (h_algorithms w0) + a) with (length (h_algorithms h) + length (h_algorithms w0) + k * length (h_algorithms w0) + a) by lia.
Qed.
Lemma receive_all_addresses nm na : forall outs h, Forall (fun cw : list nat * heap M A => length (h_models (snd cw)) = nm /\ length (h_algorithms (snd cw)) = na) outs ->
  fst (receive_all h outs) = concat (mapi (fun k cw => map (fun m => length (h_models h) + k * nm + m) (fst cw)) outs).
Proof.
  assert (G : forall outs h j b, length (h_models h) = b + j * nm -> Forall (fun cw : list nat * heap M A => length (h_models (snd cw)) = nm /\ length (h_algorithms (snd cw)) = na) outs ->
     fst (receive_all h outs) = concat (mapi_from j (fun k cw => map (fun m => b + k * nm + m) (fst cw)) outs)).
  { induction outs as [|[c0 w0] outs IH]; intros h j b Hb HF; [reflexivity|]. inversion HF as [|? ? [S1 S2] HF']. subst. cbn [receive_all fst mapi_from concat]. f_equal; [now rewrite Hb|]. apply IH; [|exact HF'].
    unfold receive; cbn [h_models]. rewrite app_length, map_length. cbn [snd] in *. lia. }
  intros outs h HF. apply (G outs h 0); [lia|exact HF].
Qed.
Lemma nth_error_blocks_at {X} c (l : list X) i : 0 < c -> i < length l -> exists blk, nth_error (blocks c l) (i / c) = Some blk /\ blk = firstn c (skipn (i / c * c) l) /\ nth_error blk (i mod c) = nth_error l i.
Proof.
  intros Hc Hi. exists (firstn c (skipn (i / c * c) l)). pose proof (Nat.div_mod i c ltac:(lia)) as E. pose proof (Nat.mod_upper_bound i c ltac:(lia)).
  split; [|split; [reflexivity|]].
  - rewrite nth_error_blocks by lia. destruct (Nat.ltb_spec (i / c * c) (length l)); [reflexivity|nia].
  - rewrite nth_error_firstn_lt by lia. rewrite nth_error_skipn_add. f_equal. nia.
Qed.

Lemma mapi_from_app {X Y} (f : nat -> X -> Y) l1 l2 : forall i, mapi_from i f (l1 ++ l2) = mapi_from i f l1 ++ mapi_from (i + length l1) f l2.
Proof. induction l1 as [|x l1 IH]; intro i; cbn [mapi_from app length]; [now rewrite Nat.add_0_r|]. rewrite IH. now replace (S i + length l1) with (i + S (length l1)) by lia. Qed.
Lemma concat_mapi_blocks {X Y} (g : nat -> X -> Y) c : 0 < c -> forall fuel l j, length l <= fuel ->
  concat (mapi_from j (fun k blk => map (g k) blk) (blocks_fuel fuel c l)) = mapi_from (j * c) (fun i m => g (i / c) m) l.
Proof.
  intros Hc. induction fuel as [|f IH]; intros l j Hl; [destruct l; [reflexivity|cbn in Hl; lia]|]. destruct l as [|x l]; [reflexivity|].
  cbn [blocks_fuel mapi_from concat]. rewrite IH by (rewrite skipn_length; cbn [length] in *; lia). transitivity (mapi_from (j * c) (fun i m => g (i / c) m) (firstn c (x :: l) ++ skipn c (x :: l))); [|now rewrite firstn_skipn]. rewrite mapi_from_app.
  assert (Q : forall l2 i0, i0 + length l2 <= c -> map (g j) l2 = mapi_from (j * c + i0) (fun i m => g (i / c) m) l2).
  { induction l2 as [|y l2 IH2]; intros i0 H; [reflexivity|]. cbn [map mapi_from length] in *. f_equal.
    - f_equal. rewrite Nat.add_comm, Nat.div_add by lia. rewrite Nat.div_small by lia. reflexivity.
    - rewrite <- Nat.add_succ_r. apply IH2. lia. }
  f_equal.
  - rewrite (Q _ 0) by (rewrite firstn_length; lia). now rewrite Nat.add_0_r.
  - destruct (Nat.le_gt_cases c (length (x :: l))) as [L|L]; [rewrite firstn_length_le by lia; now replace (S j * c) with (j * c + c) by lia|].
    now rewrite skipn_all2 by lia.
Qed.

Lemma starmap_ok data kw transport arrival p h models (W : list nat -> heap M A) : 0 < p ->
  (forall k, transport k = None) -> (forall c, In c (blocks (chunk_size (length models) p) models) -> run_chunk fit data kw h c = Ok (W c)) ->
  starmap fit data kw transport arrival p h models = Ok (receive_all h (map (fun c => (c, W c)) (blocks (chunk_size (length models) p) models))).
Proof.
  intros Hp HT HW. unfold starmap. set (chunks := blocks _ models) in *.
  assert (E : mapi (fun k c => match transport k with Some e => Err e | None => run_chunk fit data kw h c end) chunks = map (fun c => Ok (W c)) chunks).
  { apply nth_error_ext. intro i. rewrite nth_error_mapi, nth_error_map. destruct (nth_error chunks i) as [c|] eqn:Ec; [|reflexivity]. cbn [option_map]. rewrite HT. f_equal. apply HW. now apply nth_error_In in Ec. }
  rewrite E. replace (flat_map _ arrival) with (@nil exn).
  - f_equal. f_equal. clear. induction chunks as [|c cs IH]; [reflexivity|]. cbn [map combine flat_map snd fst app]. now rewrite IH.
  - clear. induction arrival as [|k l IH]; [reflexivity|]. cbn [flat_map]. rewrite <- IH. rewrite nth_error_map. now destruct (nth_error chunks k).
Qed.
(** What comes back when no call fails. *)
Lemma starmap_results data kw transport arrival p h models (W : list nat -> heap M A) : 0 < p -> models <> [] ->
  (forall k, transport k = None) -> (forall c, In c (blocks (chunk_size (length models) p) models) -> run_chunk fit data kw h c = Ok (W c)) ->
  let c := chunk_size (length models) p in
  exists h', starmap fit data kw transport arrival p h models = Ok (mapi (fun i m => length (h_models h) + i / c * length (h_models h) + m) models, h') /\
    (forall i x, nth_error (h_models h) i = Some x -> nth_error (h_models h') i = Some x) /\
    (forall i x, nth_error (h_algorithms h) i = Some x -> nth_error (h_algorithms h') i = Some x) /\
    forall i, i < length models -> let w := W (batch c i models) in
      (forall m mo, nth_error (h_models w) m = Some mo -> nth_error (h_models h') (length (h_models h) + i / c * length (h_models h) + m) =
         Some (fst mo, option_map (fun a => length (h_algorithms h) + i / c * length (h_algorithms h) + a) (snd mo))) /\
      (forall a al, nth_error (h_algorithms w) a = Some al -> nth_error (h_algorithms h') (length (h_algorithms h) + i / c * length (h_algorithms h) + a) = Some al).
Proof.
  intros Hp Hne HT HW c. assert (Hc : 0 < c) by (apply chunk_size_pos; [destruct models; [congruence|cbn; lia]|exact Hp]). set (outs := map (fun c => (c, W c)) (blocks c models)).
  assert (HF : Forall (fun cw : list nat * heap M A => length (h_models (snd cw)) = length (h_models h) /\ length (h_algorithms (snd cw)) = length (h_algorithms h)) outs).
  { apply Forall_forall. intros cw Hcw. apply in_map_iff in Hcw as (b & <- & Hb). cbn [snd]. eapply run_chunk_sizes. now apply HW. }
  exists (snd (receive_all h outs)). split; [|split; [apply receive_all_keeps|split; [apply receive_all_keeps|]]].
  - rewrite (starmap_ok data kw transport arrival p h models W Hp HT HW). fold c. fold outs. rewrite (surjective_pairing (receive_all h outs)) at 1. f_equal. f_equal.
    rewrite (receive_all_addresses _ _ outs h HF). unfold outs, mapi, blocks.
    pose proof (concat_mapi_blocks (fun k m => length (h_models h) + k * length (h_models h) + m) c Hc (length models) models 0 (le_n _)) as Q. cbn [Nat.mul] in Q. etransitivity; [|exact Q]. clear Q. f_equal. generalize (blocks_fuel (length models) c models).
    generalize 0 at 1 2. intros j l. revert j; induction l as [|b l IH]; intro j; [reflexivity|]. cbn [map mapi_from fst]. now rewrite IH.
  - intros i Hi w. destruct (nth_error_blocks_at c models i Hc Hi) as (blk & E1 & E2 & _).
    apply (receive_all_nth (length (h_models h)) (length (h_algorithms h)) outs h HF (i / c) (batch c i models) w). unfold outs. rewrite nth_error_map, E1, E2. reflexivity.
Qed.

(** One chunk of different models. *)
Lemma run_chunk_states data a (g : M -> A -> M * A) : (forall m al, fit m al data = Ok (g m al)) -> forall chunk h states al,
  NoDup chunk -> nth_error (h_algorithms h) a = Some al -> Forall2 (fun m s => exists o, nth_error (h_models h) m = Some (s, o)) chunk states ->
  exists w, run_chunk fit data (Kwargs (Some a) false) h chunk = Ok w /\ nth_error (h_algorithms w) a = Some (after g al states) /\
    (forall m, ~ In m chunk -> nth_error (h_models w) m = nth_error (h_models h) m) /\
    forall j m s, nth_error chunk j = Some m -> nth_error states j = Some s -> nth_error (h_models w) m = Some (fst (g s (after g al (firstn j states))), Some a).
Proof.
  intros HG. induction chunk as [|m chunk IH]; intros h states al HN HA HS; inversion HS as [|? s ? states' (o & Hm) HS']; subst.
  - exists h. split; [reflexivity|]. split; [exact HA|]. split; [reflexivity|]. intros j m s H. destruct j; discriminate.
  - cbn [run_chunk]. unfold fit_model. cbn [kw_device kw_algorithm]. rewrite Hm, HA, HG. cbn [bind].
    set (h1 := Heap (upd m (fst (g s al), Some a) (h_models h)) (upd a (snd (g s al)) (h_algorithms h))). inversion HN as [|? ? Hnot HN']; subst.
    assert (Lm : m < length (h_models h)) by (apply nth_error_Some; congruence). assert (La : a < length (h_algorithms h)) by (apply nth_error_Some; congruence).
    destruct (IH h1 states' (snd (g s al)) HN') as (w & Ew & Aw & Ow & Sw).
    + unfold h1; cbn [h_algorithms]. now apply nth_error_upd_eq.
    + clear - HS' Hnot. induction HS' as [|m' s' c st (o & Hm') HS IH]; constructor.
      * exists o. unfold h1; cbn [h_models]. rewrite nth_error_upd_neq; [exact Hm'|]. intros ->. apply Hnot. now left.
      * apply IH. intro. apply Hnot. now right.
    + exists w. split; [exact Ew|]. split; [exact Aw|]. split.
      * intros m' H'. rewrite Ow by (intro; apply H'; now right). unfold h1; cbn [h_models]. apply nth_error_upd_neq. intros ->. apply H'. now left.
      * intros [|j] m' s' H1 H2; cbn [nth_error] in H1, H2.
        -- injection H1 as <-. injection H2 as <-. rewrite Ow by exact Hnot. unfold h1; cbn [h_models]. rewrite nth_error_upd_eq by exact Lm. reflexivity.
        -- exact (Sw j m' s' H1 H2).
Qed.
Lemma starmap_nil data kw transport arrival p h : starmap fit data kw transport arrival p h [] = Ok ([], h).
Proof.
  unfold starmap. cbn [length blocks blocks_fuel mapi mapi_from combine flat_map]. change (blocks (chunk_size 0 p) (@nil nat)) with (@nil (list nat)). cbn [mapi mapi_from combine flat_map receive_all].
  replace (flat_map _ arrival) with (@nil exn); [reflexivity|]. induction arrival as [|k l IH]; [reflexivity|]. cbn [flat_map]. rewrite <- IH. now destruct k.
Qed.
End multi.
