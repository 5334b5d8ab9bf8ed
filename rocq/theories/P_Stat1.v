(** Lemmas: the sum-score recursion computes the distribution of the sum of independent item scores. *)
From Verif Require Import Base BaseFacts RBase RFacts M_Logit M_Mono M_Lik M_Est M_Stat S_Stat.
Local Open Scope R_scope.

(** ** Expectations of functions of the total score *)
Fixpoint etotal (items : list (nat * (nat -> R))) (g : nat -> R) : R :=
  match items with
  | [] => g O
  | (c, p) :: rest => sumn c (fun k => p k * etotal rest (fun t => g (k + t)%nat))
  end.
Lemma etotal_ext items g h : (forall t, g t = h t) -> etotal items g = etotal items h.
Proof.
  revert g h; induction items as [|[c p] items IH]; intros g h H; [apply H|]. cbn [etotal]. apply sumn_ext. intros k _. f_equal. apply IH. intros; apply H.
Qed.
Lemma etotal_sumn items n (g : nat -> nat -> R) : etotal items (fun t => sumn n (fun k => g k t)) = sumn n (fun k => etotal items (g k)).
Proof.
  revert g; induction items as [|[c p] items IH]; intros g; [reflexivity|]. cbn [etotal].
  rewrite sumn_swap. apply sumn_ext. intros k _. rewrite (IH (fun i t => g i (k + t)%nat)), sumn_scal. reflexivity.
Qed.
Lemma etotal_scal items r g : etotal items (fun t => r * g t) = r * etotal items g.
Proof.
  revert g; induction items as [|[c p] items IH]; intros g; [reflexivity|]. cbn [etotal]. rewrite <- sumn_scal. apply sumn_ext.
  intros k _. rewrite (IH (fun t => g (k + t)%nat)). ring.
Qed.
Lemma etotal_app items q c g : etotal (items ++ [(c, q)]) g = etotal items (fun t => sumn c (fun k => q k * g (t + k)%nat)).
Proof.
  revert g; induction items as [|[c' p] items IH]; intros g.
  - cbn [app etotal]. apply sumn_ext. intros k _. f_equal. f_equal. lia.
  - cbn [app etotal]. apply sumn_ext. intros k _. f_equal. rewrite IH. apply etotal_ext. intros t. apply sumn_ext. intros j _. f_equal. f_equal. lia.
Qed.
Lemma etotal_nonneg items g : Forall (fun '(c, p) => forall k, (k < c)%nat -> 0 <= p k) items -> (forall t, 0 <= g t) -> 0 <= etotal items g.
Proof.
  intros H. revert g; induction H as [|[c p] items Hp _ IH]; intros g Hg; [apply Hg|]. cbn [etotal]. apply sumn_nonneg. intros k Hk.
  apply Rmult_le_pos; [apply Hp; assumption|apply IH; intros; apply Hg].
Qed.
Lemma etotal_one items : Forall (fun '(c, p) => sumn c p = 1) items -> etotal items (fun _ => 1) = 1.
Proof.
  intros H. induction H as [|[c p] items Hp _ IH]; [reflexivity|]. cbn [etotal].
  rewrite IH, (sumn_ext _ _ p); [assumption|]. intros. ring.
Qed.
Definition hit (s t : nat) : R := if (t =? s)%nat then 1 else 0.
(** Totals never exceed the sum of the maxima. *)
Lemma etotal_range items g h : (forall t, (t <= list_sum (map (fun '(c, _) => c - 1) items))%nat -> g t = h t) -> etotal items g = etotal items h.
Proof.
  revert g h; induction items as [|[c p] items IH]; intros g h H; [apply H; cbn; lia|]. cbn [etotal]. apply sumn_ext. intros k Hk. f_equal. apply IH.
  intros t Ht. apply H. cbn [map list_sum fold_right] in *. unfold list_sum in Ht. lia.
Qed.

Lemma sumn_zero n f : (forall k, (k < n)%nat -> f k = 0) -> sumn n f = 0.
Proof. intros H. rewrite (sumn_ext _ _ (fun _ => 0)) by exact H. apply sumn_0. Qed.

(** ** Slices *)
Lemma foldM_app {A B} (f : B -> A -> result B) l1 l2 b : foldM f (l1 ++ l2) b = bind (foldM f l1 b) (foldM f l2).
Proof. revert b; induction l1 as [|a l1 IH]; intros b; [reflexivity|]. cbn [app foldM]. destruct (f b a); [apply IH|reflexivity]. Qed.
Lemma nth_firstn {A} k i (l : list A) d : (i < k)%nat -> nth i (firstn k l) d = nth i l d.
Proof. revert i l; induction k as [|k IH]; intros [|i] [|x l] H; try lia; cbn; auto. apply IH; lia. Qed.
Lemma nth_skipn_add {A} k i (l : list A) d : nth i (skipn k l) d = nth (k + i) l d.
Proof. revert l; induction k as [|k IH]; intros l; [reflexivity|]. destruct l as [|x l]; cbn; [destruct i; reflexivity|apply IH]. Qed.
Lemma nth_zip_plus a b i : (i < length a)%nat -> (i < length b)%nat -> nth i (zip_with Rplus a b) 0 = nth i a 0 + nth i b 0.
Proof.
  revert b i; induction a as [|x a IH]; intros [|y b] [|i] H1 H2; cbn [length] in *; try lia; [reflexivity|]. cbn [zip_with nth]. apply IH; lia.
Qed.
Lemma zip_plus_length a b : length (zip_with Rplus a b) = Nat.min (length a) (length b).
Proof. revert b; induction a as [|x a IH]; intros [|y b]; cbn; auto. Qed.
Lemma add_slice_spec j vals acc : (j + length vals <= length acc)%nat ->
  exists out, add_slice j vals acc = Ok out /\ length out = length acc /\
    forall i, nth i out 0 = nth i acc 0 + (if (j <=? i)%nat && (i <? j + length vals)%nat then nth (i - j) vals 0 else 0).
Proof.
  intros H. unfold add_slice. rewrite (proj2 (Nat.leb_le _ _)) by exact H. eexists. split; [reflexivity|].
  assert (L1 : length (firstn j acc) = j) by (apply firstn_length_le; lia).
  assert (L2 : length (firstn (length vals) (skipn j acc)) = length vals) by (apply firstn_length_le; rewrite skipn_length; lia).
  assert (L3 : length (zip_with Rplus vals (firstn (length vals) (skipn j acc))) = length vals) by (rewrite zip_plus_length, L2; lia).
  split; [rewrite !app_length, L1, L3, skipn_length; lia|]. intros i.
  destruct (Nat.leb_spec j i).
  - rewrite app_nth2 by lia. rewrite L1. destruct (Nat.ltb_spec i (j + length vals)).
    + cbn [andb]. rewrite app_nth1 by lia. rewrite nth_zip_plus by lia. rewrite nth_firstn, nth_skipn_add by lia.
      replace (j + (i - j))%nat with i by lia. ring.
    + cbn [andb]. rewrite app_nth2 by lia. rewrite L3, nth_skipn_add. replace (j + length vals + (i - j - length vals))%nat with i by lia. ring.
  - cbn [andb]. rewrite app_nth1 by lia. rewrite nth_firstn by lia. ring.
Qed.

(** The inner loop adds the shifted, weighted rows. *)
Lemma inner_loop (ns p : list R) m acc0 : (m + length p <= S (length acc0))%nat -> (0 < length p)%nat ->
  exists out, foldM (fun acc j => add_slice j (map (fun x => nth j ns 0 * x) p) acc) (seq 0 m) acc0 = Ok out /\ length out = length acc0 /\
    forall i, nth i out 0 = nth i acc0 0 + sumn m (fun j => if (j <=? i)%nat && (i <? j + length p)%nat then nth j ns 0 * nth (i - j) p 0 else 0).
Proof.
  induction m as [|m IH]; intros H Hp.
  - exists acc0. split; [reflexivity|]. split; [reflexivity|]. intros i. cbn [sumn]. ring.
  - destruct IH as (o & E & L & N); [lia|lia|]. rewrite seq_S, foldM_app, E. cbn [bind foldM Nat.add].
    destruct (add_slice_spec m (map (fun x => nth m ns 0 * x) p) o) as (o' & E' & L' & N'); [rewrite map_length; lia|].
    rewrite E'. cbn [bind]. exists o'. split; [reflexivity|]. split; [lia|]. intros i. rewrite N', N. cbn [sumn]. rewrite map_length.
    destruct ((m <=? i)%nat && (i <? m + length p)%nat) eqn:B; [|ring].
    apply andb_true_iff in B. destruct B as [B1 B2]. apply Nat.leb_le in B1. apply Nat.ltb_lt in B2.
    rewrite (nth_indep (map (fun x => nth m ns 0 * x) p) 0 ((fun x => nth m ns 0 * x) 0)) by (rewrite map_length; lia). rewrite (map_nth (fun x => nth m ns 0 * x)). ring.
Qed.

(** ** The outer loop *)
Definition itemlist (probs : list (list R)) (cats : list nat) : list (nat * (nat -> R)) :=
  map (fun '(p, c) => (c, fun k => nth k p 0)) (combine probs cats).
Lemma fits_length probs cats : fits probs cats -> length probs = length cats.
Proof. induction 1; cbn; auto. Qed.
Lemma fits_nth probs cats i c : fits probs cats -> nth_error cats i = Some c -> (1 <= c)%nat /\ (c <= length (nth i probs []))%nat.
Proof. intros H. revert i; induction H as [|p c' ps cs H _ IH]; intros [|i] E; try discriminate; cbn in *; [injection E as <-; assumption|apply IH; assumption]. Qed.
Lemma fits_sum probs cats : fits probs cats -> (length cats <= list_sum cats)%nat.
Proof. induction 1 as [|p c ps cs H _ IH]; [cbn; lia|]. change (list_sum (c :: cs)) with (c + list_sum cs)%nat. cbn [length]. lia. Qed.
Lemma fits_firstn probs cats k : fits probs cats -> fits (firstn k probs) (firstn k cats).
Proof. intros H. revert k; induction H as [|p c ps cs H _ IH]; intros [|k]; cbn; constructor; auto. apply IH. Qed.
Lemma itemlist_snoc probs cats i c : length probs = length cats -> nth_error cats i = Some c ->
  itemlist (firstn (S i) probs) (firstn (S i) cats) = itemlist (firstn i probs) (firstn i cats) ++ [(c, fun k => nth k (nth i probs []) 0)].
Proof.
  intros HL. revert cats i HL; induction probs as [|p ps IH]; intros [|c' cs] i HL E; cbn [length] in *; try lia; [destruct i; discriminate|].
  destruct i as [|i]; [cbn in *; injection E as <-; reflexivity|]. cbn [nth_error] in E. cbn [firstn]. unfold itemlist in *. cbn [combine map app]. f_equal.
  specialize (IH cs i). apply IH; [lia|assumption].
Qed.
Lemma list_sum_snoc l c : list_sum (l ++ [c]) = (list_sum l + c)%nat.
Proof. rewrite list_sum_app. cbn. lia. Qed.
Lemma firstn_snoc {A} (l : list A) i x : nth_error l i = Some x -> firstn (S i) l = firstn i l ++ [x].
Proof. revert i; induction l as [|a l IH]; intros [|i] E; try discriminate; cbn in *; [injection E as <-; reflexivity|]. f_equal. apply IH. assumption. Qed.
Lemma firstn_fits_sum_le probs cats k : fits probs cats -> (list_sum (firstn k cats) + length cats <= list_sum cats + length (firstn k cats))%nat.
Proof.
  intros H. revert k; induction H as [|p c ps cs H Hr IH]; intros [|k]; [cbn; lia|cbn; lia| |].
  - change (list_sum (c :: cs)) with (c + list_sum cs)%nat. cbn [firstn length]. change (list_sum []) with O. pose proof (fits_sum _ _ Hr). lia.
  - cbn [firstn length]. change (list_sum (c :: cs)) with (c + list_sum cs)%nat. change (list_sum (c :: firstn k cs)) with (c + list_sum (firstn k cs))%nat.
    specialize (IH k). lia.
Qed.
Lemma maxima_sum probs cats : fits probs cats -> list_sum (map (fun '(c, _) => (c - 1)%nat) (itemlist probs cats)) = (list_sum cats - length cats)%nat.
Proof.
  induction 1 as [|p c ps cs H Hr IH]; [reflexivity|]. unfold itemlist in *. cbn [combine map]. change (list_sum (c :: cs)) with (c + list_sum cs)%nat.
  cbn [length]. pose proof (fits_sum _ _ Hr).
  match goal with |- list_sum (?a :: ?b) = _ => change (list_sum (a :: b)) with (a + list_sum b)%nat end. rewrite IH. lia.
Qed.

Section Csd.
  Variables (probs : list (list R)) (cats : list nat).
  Hypothesis HF : fits probs cats.
  Hypothesis Hne : probs <> [].
  Let n := length cats.
  Let W := (list_sum cats - n + 1)%nat.
  Definition good (i : nat) (ns : list R) : Prop :=
    length ns = W /\ forall s, nth s ns 0 = etotal (itemlist (firstn i probs) (firstn i cats)) (hit s).
  Lemma etotal_over i s : (list_sum (firstn i cats) - length (firstn i cats) < s)%nat -> etotal (itemlist (firstn i probs) (firstn i cats)) (hit s) = 0.
  Proof.
    intros H. rewrite (etotal_range _ _ (fun _ => 0 * 0)).
    - rewrite etotal_scal. ring.
    - intros t Ht. rewrite (maxima_sum _ _ (fits_firstn _ _ i HF)) in Ht. unfold hit. destruct (Nat.eqb_spec t s); [lia|ring].
  Qed.
  Lemma step i ns : (S i < S n)%nat -> (0 < i)%nat -> good i ns -> exists ns', csd_item cats probs ns i = Ok ns' /\ good (S i) ns'.
  Proof.
    intros Hi H0 [GL GN]. unfold csd_item, cat_count.
    destruct (nth_error cats i) as [c|] eqn:Ec; [|apply nth_error_None in Ec; unfold n in Hi; lia]. cbn [bind].
    destruct (fits_nth probs cats i c HF Ec) as [C1 C2].
    assert (CP : cat_probs probs i c = Ok (firstn c (nth i probs []))).
    { unfold cat_probs. rewrite firstn_length_le by exact C2. rewrite Nat.eqb_refl. reflexivity. }
    set (p := firstn c (nth i probs [])) in *. assert (Lp : length p = c) by (apply firstn_length_le; exact C2).
    set (prev := (list_sum (firstn i cats) - length (firstn i cats))%nat).
    assert (Sn : firstn (S i) cats = firstn i cats ++ [c]) by (apply firstn_snoc; exact Ec).
    assert (Li : length (firstn i cats) = i) by (apply firstn_length_le; unfold n in Hi; lia).
    pose proof (fits_sum _ _ (fits_firstn probs cats i HF)) as S1.
    assert (EM : (list_sum (firstn (S i) cats) - length (firstn (S i) cats) + 2 - c = prev + 1)%nat).
    { rewrite Sn, list_sum_snoc, app_length. cbn [length]. unfold prev. lia. }
    rewrite EM, CP. cbn [bind].
    pose proof (firstn_fits_sum_le probs cats (S i) HF) as S2. rewrite Sn, list_sum_snoc, app_length in S2. cbn [length] in S2.
    pose proof (fits_sum _ _ HF) as S3.
    assert (HW : (prev + c <= W)%nat) by (unfold prev, W, n; lia).
    destruct (inner_loop ns p (prev + 1) (repeat 0 (length ns))) as (o & Eo & Lo & No); [rewrite repeat_length, Lp; lia|lia|].
    exists o. split; [exact Eo|]. rewrite repeat_length in Lo. split; [lia|]. intros s. rewrite No.
    rewrite (itemlist_snoc probs cats i c (fits_length _ _ HF) Ec), etotal_app.
    assert (Z : nth s (repeat 0 (length ns)) 0 = 0) by (destruct (Nat.lt_ge_cases s (length ns)); [apply nth_repeat|apply nth_overflow; rewrite repeat_length; assumption]).
    rewrite Z, Rplus_0_l.
    set (w := fun j => if (j <=? s)%nat && (s <? j + length p)%nat then nth (s - j) p 0 else 0).
    transitivity (etotal (itemlist (firstn i probs) (firstn i cats)) (fun t => sumn (prev + 1) (fun j => w j * hit j t))).
    - rewrite etotal_sumn. apply sumn_ext. intros j Hj. rewrite etotal_scal, <- GN. unfold w.
      destruct ((j <=? s)%nat && (s <? j + length p)%nat); ring.
    - apply etotal_range. intros t Ht. rewrite (maxima_sum _ _ (fits_firstn _ _ i HF)) in Ht. fold prev in Ht.
      rewrite (sumn_single (prev + 1) t) by (lia || (intros j Hj Hne'; unfold hit; destruct (Nat.eqb_spec t j); [lia|ring])).
      unfold hit at 1. rewrite Nat.eqb_refl. unfold w. rewrite Lp.
      destruct (Nat.leb_spec t s); [destruct (Nat.ltb_spec s (t + c))|]; cbn [andb].
      + rewrite (sumn_single c (s - t)) by (lia || (intros j Hj Hne'; unfold hit; destruct (Nat.eqb_spec (t + j) s); [lia|ring])).
        unfold hit. rewrite (proj2 (Nat.eqb_eq _ _)) by lia. unfold p. rewrite nth_firstn by lia. ring.
      + rewrite Rmult_0_l. symmetry. apply sumn_zero. intros j Hj. unfold hit. destruct (Nat.eqb_spec (t + j) s); [lia|ring].
      + rewrite Rmult_0_l. symmetry. apply sumn_zero. intros j Hj. unfold hit. destruct (Nat.eqb_spec (t + j) s); [lia|ring].
  Qed.
  Lemma steps m i ns : (i + m <= n)%nat -> (0 < i)%nat -> good i ns -> exists ns', foldM (csd_item cats probs) (seq i m) ns = Ok ns' /\ good (i + m) ns'.
  Proof.
    revert i ns; induction m as [|m IH]; intros i ns H Hi G.
    - exists ns. rewrite Nat.add_0_r. split; [reflexivity|assumption].
    - cbn [seq foldM]. destruct (step i ns) as (ns1 & -> & G1); [lia|lia|exact G|]. cbn [bind].
      replace (i + S m)%nat with (S i + m)%nat by lia. apply IH; [lia|lia|exact G1].
  Qed.
  Lemma csd_etotal : exists ds, conditional_score_distribution probs cats = Ok ds /\ length ds = W /\ forall s, nth s ds 0 = etotal (itemlist probs cats) (hit s).
  Proof.
    pose proof (fits_length _ _ HF) as HL. pose proof (fits_sum _ _ HF) as HS.
    unfold conditional_score_distribution. rewrite (proj2 (Nat.ltb_ge _ _)) by lia. unfold cat_count.
    destruct (nth_error cats 0) as [c|] eqn:Ec; [|destruct cats; [destruct probs; [congruence|cbn in HL; lia]|discriminate]]. cbn [bind].
    destruct (fits_nth probs cats 0 c HF Ec) as [C1 C2].
    assert (CP : cat_probs probs 0 c = Ok (firstn c (nth 0 probs []))).
    { unfold cat_probs. rewrite firstn_length_le by exact C2. rewrite Nat.eqb_refl. reflexivity. }
    assert (Lp : length (firstn c (nth 0 probs [])) = c) by (apply firstn_length_le; exact C2).
    assert (N1 : (1 <= n)%nat) by (unfold n; destruct cats; [discriminate|cbn; lia]).
    assert (HW : (c <= W)%nat).
    { pose proof (firstn_fits_sum_le probs cats 1 HF) as S2. rewrite (firstn_snoc cats 0 c Ec), list_sum_snoc, app_length in S2.
      cbn [length firstn] in S2. change (list_sum []) with O in S2. unfold W, n. lia. }
    assert (SP : exists ns, set_prefix (firstn c (nth 0 probs [])) (repeat 0 (list_sum cats - length probs + 1)) = Ok ns /\ good 1 ns).
    { unfold set_prefix. rewrite Lp, repeat_length. replace (list_sum cats - length probs + 1)%nat with W by (unfold W, n; lia).
      rewrite (proj2 (Nat.leb_le _ _)) by exact HW. eexists. split; [reflexivity|]. split; [rewrite app_length, skipn_length, repeat_length, Lp; lia|].
      intros s. rewrite (itemlist_snoc probs cats 0 c HL Ec). cbn [firstn app]. unfold itemlist. cbn [combine map app etotal].
      assert (E0 : nth s (firstn c (nth 0 probs []) ++ skipn c (repeat 0 W)) 0 = if (s <? c)%nat then nth s (nth 0 probs []) 0 else 0).
      { destruct (Nat.ltb_spec s c); [rewrite app_nth1 by lia; apply nth_firstn; assumption|]. rewrite app_nth2 by lia. rewrite Lp, nth_skipn_add.
        destruct (Nat.lt_ge_cases (c + (s - c)) W); [apply nth_repeat|apply nth_overflow; rewrite repeat_length; assumption]. }
      rewrite E0. destruct (Nat.ltb_spec s c).
      - rewrite (sumn_single c s) by (lia || (intros j Hj Hj'; unfold hit; rewrite Nat.add_0_r; destruct (Nat.eqb_spec j s); [lia|ring])).
        unfold hit. rewrite Nat.add_0_r, Nat.eqb_refl. ring.
      - symmetry. apply sumn_zero. intros j Hj. unfold hit. rewrite Nat.add_0_r. destruct (Nat.eqb_spec j s); [lia|ring]. }
    destruct SP as (ns & SP & G).
    destruct (steps (n - 1) 1 ns) as (ds & E & G'); [lia|lia|exact G|].
    exists ds. destruct G' as [GL GN]. split; [|split; [exact GL|]].
    - destruct probs as [|p0 ps] eqn:Ep; [congruence|]. rewrite <- Ep in *. rewrite CP. cbn [bind]. rewrite SP. cbn [bind].
      rewrite HL. exact E.
    - intros s. rewrite GN. replace (1 + (n - 1))%nat with n by lia. unfold n. rewrite firstn_all. rewrite <- HL, firstn_all. reflexivity.
  Qed.
End Csd.

(** ** Expectations are sums over response patterns *)
Lemma rsum_map_scal {A} (l : list A) r f : rsum (map (fun x => r * f x) l) = r * rsum (map f l).
Proof. induction l as [|x l IH]; [cbn; ring|]. cbn. unfold rsum in *. cbn. rewrite IH. ring. Qed.
Lemma patterns_etotal probs cats g : length probs = length cats ->
  rsum (map (fun pat => g (list_sum pat) * pattern_probability probs pat) (response_patterns cats)) = etotal (itemlist probs cats) g.
Proof.
  revert cats g; induction probs as [|p ps IH]; intros [|c cs] g HL; cbn [length] in HL; try lia; [cbn; ring|].
  unfold itemlist. cbn [combine map etotal]. fold (itemlist ps cs). cbn [response_patterns].
  assert (H : forall a b, rsum (map (fun pat => g (list_sum pat) * pattern_probability (p :: ps) pat) (flat_map (fun k => map (cons k) (response_patterns cs)) (seq a b)))
     = sumn b (fun k => nth (a + k) p 0 * etotal (itemlist ps cs) (fun t => g (a + k + t)%nat))).
  { intros a b. revert a; induction b as [|b IHb]; intros a; [reflexivity|]. rewrite sumn_S_first. cbn [seq flat_map]. rewrite map_app, rsum_app, IHb. f_equal.
    - rewrite map_map. rewrite (map_ext _ (fun pat => nth (a + 0) p 0 * (g (a + 0 + list_sum pat)%nat * pattern_probability ps pat))).
      + rewrite rsum_map_scal. rewrite (IH cs (fun t => g (a + 0 + t)%nat)) by lia. reflexivity.
      + intros pat. cbn [pattern_probability]. change (list_sum (a :: pat)) with (a + list_sum pat)%nat. rewrite Nat.add_0_r. ring.
    - apply sumn_ext. intros k _. replace (a + S k)%nat with (S a + k)%nat by lia. reflexivity. }
  rewrite (H O c). reflexivity.
Qed.
Lemma score_probability_etotal probs cats s : length probs = length cats -> score_probability probs cats s = etotal (itemlist probs cats) (hit s).
Proof.
  intros H. rewrite <- patterns_etotal by assumption. unfold score_probability. f_equal. apply map_ext. intros pat. unfold hit.
  destruct (list_sum pat =? s)%nat; ring.
Qed.
Lemma csd_spec probs cats : fits probs cats -> probs <> [] ->
  exists ds, conditional_score_distribution probs cats = Ok ds /\ length ds = (list_sum cats - length cats + 1)%nat /\ forall s, nth s ds 0 = score_probability probs cats s.
Proof.
  intros HF Hne. destruct (csd_etotal probs cats HF Hne) as (ds & E & L & N). exists ds. split; [exact E|]. split; [exact L|].
  intros s. rewrite N, score_probability_etotal; [reflexivity|apply fits_length; assumption].
Qed.

(** ** Consequences for distributions *)
Lemma Forall2_weaken {A B} (P Q : A -> B -> Prop) l m : (forall a b, P a b -> Q a b) -> Forall2 P l m -> Forall2 Q l m.
Proof. intros H. induction 1; constructor; auto. Qed.
Lemma itemlist_forall (P : nat * (nat -> R) -> Prop) probs cats :
  Forall2 (fun p c => P (c, fun k => nth k p 0)) probs cats -> Forall P (itemlist probs cats).
Proof. induction 1 as [|p c ps cs H _ IH]; unfold itemlist; cbn [combine map]; constructor; assumption. Qed.
Lemma score_probability_nonneg probs cats s : all_distributions probs cats -> 0 <= score_probability probs cats s.
Proof.
  intros H. assert (length probs = length cats) by (induction H; cbn; auto). rewrite score_probability_etotal by assumption.
  apply etotal_nonneg; [|intros t; unfold hit; destruct (t =? s)%nat; lra]. apply itemlist_forall. eapply Forall2_weaken; [|exact H]. intros p c Hd. apply Hd.
Qed.
Lemma score_probability_sum probs cats : fits probs cats -> all_distributions probs cats ->
  sumn (list_sum cats - length cats + 1) (score_probability probs cats) = 1.
Proof.
  intros HF H. rewrite (sumn_ext _ _ (fun s => etotal (itemlist probs cats) (hit s))) by (intros; apply score_probability_etotal, fits_length; assumption).
  rewrite <- etotal_sumn. rewrite <- (etotal_one (itemlist probs cats)).
  - apply etotal_range. intros t Ht. rewrite maxima_sum in Ht by assumption. rewrite (sumn_single _ t) by (lia || (intros j Hj Hj'; unfold hit; destruct (Nat.eqb_spec t j); [lia|ring])).
    unfold hit. rewrite Nat.eqb_refl. reflexivity.
  - apply itemlist_forall. eapply Forall2_weaken; [|exact H]. intros p c Hd. apply Hd.
Qed.
(** The mean of the total score is the sum of the mean item scores. *)
Lemma etotal_plus items g h : etotal items (fun t => g t + h t) = etotal items g + etotal items h.
Proof.
  revert g h; induction items as [|[c p] items IH]; intros g h; [reflexivity|]. cbn [etotal]. rewrite <- sumn_plus. apply sumn_ext. intros k _.
  rewrite (IH (fun t => g (k + t)%nat) (fun t => h (k + t)%nat)). ring.
Qed.
Lemma score_probability_mean probs cats : fits probs cats -> all_distributions probs cats ->
  sumn (list_sum cats - length cats + 1) (fun s => INR s * score_probability probs cats s)
  = rsum (zip_with (fun p c => sumn c (fun k => INR k * nth k p 0)) probs cats).
Proof.
  intros HF H.
  rewrite (sumn_ext _ _ (fun s => etotal (itemlist probs cats) (fun t => INR s * hit s t))) by (intros; rewrite etotal_scal; f_equal; apply score_probability_etotal, fits_length; assumption).
  rewrite <- etotal_sumn. rewrite (etotal_range _ _ INR).
  2:{ intros t Ht. rewrite maxima_sum in Ht by assumption. rewrite (sumn_single _ t) by (lia || (intros j Hj Hj'; unfold hit; destruct (Nat.eqb_spec t j); [lia|ring])).
      unfold hit. rewrite Nat.eqb_refl. ring. }
  clear HF. induction H as [|p c ps cs Hp Hr IH]; [reflexivity|]. unfold itemlist. cbn [combine map etotal zip_with]. fold (itemlist ps cs).
  match goal with |- _ = rsum (?a :: ?b) => change (rsum (a :: b)) with (a + rsum b) end. rewrite <- IH.
  assert (O1 : etotal (itemlist ps cs) (fun _ => 1) = 1) by (apply etotal_one, itemlist_forall; eapply Forall2_weaken; [|exact Hr]; intros q d Hd; apply Hd).
  rewrite (sumn_ext _ _ (fun k => INR k * nth k p 0 + nth k p 0 * etotal (itemlist ps cs) INR)).
  - rewrite sumn_plus, sumn_scal_r. rewrite (proj2 Hp). ring.
  - intros k _. rewrite (etotal_ext _ _ (fun t => INR k * 1 + INR t)) by (intros; rewrite plus_INR; ring). rewrite etotal_plus, etotal_scal, O1. ring.
Qed.
