(** Honest sub-models, the order of the cells of a mix, and the mixes that fail. *)
From Verif Require Import Base BaseFacts RBase RFacts M_Data M_Logit S_Logit P_Logit P_Logit2 P_Logit3 T_Logit M_Lik S_Lik P_Lik1 P_Lik2 P_Lik3 P_Lik4 P_Lik5.
Local Open Scope R_scope.

Lemma logit_sub_honest nanl lv cats fwd thetas : (0 < length cats)%nat -> (0 < list_max cats)%nat ->
  rect (length thetas) (length cats * list_max cats) (fwd thetas) ->
  honest_sub thetas (logit_sub nanl lv cats fwd) (Wide (length cats * list_max cats) (fwd thetas))
    (probabilities_from_output (length cats) (list_max cats) (fwd thetas)).
Proof.
  intros HI HM Hr. unfold honest_sub. cbn [sb_forward sb_probs sb_ll logit_sub w_cols w_rows].
  change (sb_items (logit_sub nanl lv cats fwd)) with (length cats). change (sb_max (logit_sub nanl lv cats fwd)) with (list_max cats).
  repeat match goal with |- _ /\ _ => split end.
  - reflexivity.
  - apply Nat.mul_comm.
  - now rewrite Nat.mul_comm.
  - reflexivity.
  - now apply softmax_table_shape.
  - intros data mask x p Hd Hm Hx Hp. now apply (base_sum nanl (length thetas) (length cats) (list_max cats) data (fwd thetas) mask x).
  - intros data mask x Hd Hm Hx. now apply base_cells.
Qed.
Lemma grm_sub_honest nanl m thetas : poly_wf m -> (0 < p_items m)%nat -> Forall (fun t => length t = p_lv m) thetas ->
  honest_sub thetas (grm_sub nanl m) (Wide (p_items m * p_max m) (grm_forward m thetas)) (some3 (grm_probabilities m thetas)).
Proof.
  intros Hwf HI HF. pose proof Hwf as (_ & Hc & _). pose proof (cats_max_pos _ Hc HI) as HM. fold (p_max m) in HM.
  pose proof (grm_rect m thetas Hwf HI HM HF) as Hr.
  destruct (grm_table_shape _ _ _ _ HI HM Hr) as [Hs1 Hs2].
  unfold honest_sub. cbn [sb_forward sb_probs sb_ll grm_sub w_cols w_rows rows_of].
  change (sb_items (grm_sub nanl m)) with (p_items m). change (sb_max (grm_sub nanl m)) with (p_max m).
  repeat match goal with |- _ /\ _ => split end.
  - reflexivity.
  - apply Nat.mul_comm.
  - now rewrite Nat.mul_comm.
  - reflexivity.
  - now split.
  - intros data mask x p Hd Hm Hx Hp. now apply (prob_sum nanl (length thetas) (p_items m) (p_max m) data _ mask x).
  - intros data mask x Hd Hm Hx. now apply prob_cells.
Qed.
Lemma gpc_sub_honest nanl m thetas : poly_wf m -> (0 < p_items m)%nat -> Forall (fun t => length t = p_lv m) thetas ->
  exists w, honest_sub thetas (gpc_sub nanl m) w (gpc_probabilities m thetas).
Proof.
  intros Hwf HI HF. pose proof Hwf as (_ & Hc & _). eexists. apply logit_sub_honest; auto.
  - now apply cats_max_pos.
  - now apply gpc_rect.
Qed.
Lemma nrm_sub_honest nanl m thetas : nrm_wf m -> (0 < length (nrm_cats m))%nat ->
  exists w, honest_sub thetas (nrm_sub nanl m) w (nrm_probabilities m thetas).
Proof.
  intros Hwf HI. pose proof Hwf as (_ & Hc & _). eexists. apply logit_sub_honest; auto.
  - now apply cats_max_pos.
  - now apply nrm_rect.
Qed.
Lemma tpl_sub_honest nanl m thetas : tpl_wf m -> (0 < tpl_items m)%nat -> Forall (fun t => length t = tpl_lv m) thetas ->
  exists w, honest_sub thetas (tpl_sub nanl m) w (tpl_probabilities m thetas).
Proof.
  intros Hwf HI HF. unfold tpl_probabilities, tpl_sub.
  pose proof (logit_sub_honest nanl (tpl_lv m) (repeat 2%nat (tpl_items m)) (tpl_forward m) thetas) as H.
  rewrite repeat_length, repeat_max in H by auto. eexists. apply H; auto. now apply tpl_rect.
Qed.

(** ** Order of the cells *)
Section Cells.
  Variables (thetas : list (list R)) (subs : list sub) (ws : list (wide ext)) (Ps : list (list (list (list (option R))))).
  Let N := length thetas.
  Hypothesis Hne : subs <> [].
  Hypothesis Hlw : length ws = length subs.
  Hypothesis HlP : length Ps = length subs.
  Hypothesis Hsub : forall k s w P, nth_error subs k = Some s -> nth_error ws k = Some w -> nth_error Ps k = Some P ->
    honest_sub thetas s w P.
  Let items := map sb_items subs.
  Variables (data : list (list cell)) (mask : option (list (list bool))).
  Hypothesis Hdata : rect N (list_sum items) data.
  Hypothesis Hmask : rect_opt N (list_sum items) mask.
  Variables (x : nat -> nat -> nat) (p : nat -> nat -> R).
  Hypothesis Hresp : responses N (list_sum items) (mix_max subs) mask data x.
  Hypothesis Hp : observed_probability N (list_sum items) mask (mix_table subs Ps) x p.

  Definition part_cells (k : nat) (s : sub) : list fl :=
    map (fun q => let n := (q / sb_items s)%nat in let i := (offset items k + q mod sb_items s)%nat in
                  if masked mask n i then None else Some (Fin (ln (p n i)))) (seq 0 (N * sb_items s)).
  Lemma part_cells_eq k s w P : nth_error subs k = Some s -> nth_error ws k = Some w -> nth_error Ps k = Some P ->
    sb_ll s RNone (sub_data subs data k s) (T2 w) (sub_mask subs mask k s) = Ok (Cells (part_cells k s)).
  Proof.
    intros Hs Hw HP. destruct (Hsub k s w P Hs Hw HP) as (_ & _ & _ & _ & _ & _ & Hcells).
    destruct (Hcells (sub_data subs data k s) (sub_mask subs mask k s) (fun n j => x n (offset items k + j)%nat)) as (l & E & Hl & Hn).
    - now apply (sub_data_rect thetas subs ws Ps Hlw HlP data Hdata).
    - now apply (sub_mask_rect thetas subs ws Ps Hlw HlP mask Hmask).
    - now apply (sub_responses thetas subs ws Ps Hne Hlw HlP Hsub data mask Hmask x p Hresp Hp k s P).
    - rewrite E. do 2 f_equal. apply nth_error_ext; intro q. unfold part_cells.
      destruct (Nat.lt_ge_cases q (N * sb_items s)) as [Hq|Hq].
      + rewrite nth_error_map_seq by auto. cbn [Nat.add]. destruct (position_split N (sb_items s) q Hq) as (n & j & Hn' & Hj & ->).
        rewrite (Hn n j Hn' Hj). rewrite pos_div, pos_mod by auto. f_equal.
        rewrite (masked_sub thetas subs ws Ps Hlw HlP mask Hmask k s n j Hs Hj). fold items.
        destruct (masked mask n (offset items k + j)) eqn:Em; [reflexivity|].
        assert (Em' : masked (sub_mask subs mask k s) n j = false) by (rewrite (masked_sub thetas subs ws Ps Hlw HlP mask Hmask k s n j Hs Hj); exact Em).
        destruct (sub_positive thetas subs ws Ps Hne Hlw HlP Hsub mask Hmask x p Hp k s P n j Hs HP Hn' Hj Em') as (_ & E3 & Hpos).
        unfold prob_at. fold items in E3. rewrite E3. now rewrite flog_pos.
      + transitivity (@None fl); [apply nth_error_None; lia|symmetry; apply nth_error_None; rewrite map_length, seq_length; lia].
  Qed.
  Lemma mix_none :
    mix_log_likelihood subs RNone (Wide (list_sum items) data) (T2 (Wide (list_sum (mix_sizes subs)) (mix_rows ws)))
      (option_map (fun m => Wide (list_sum items) m) mask) =
    Ok (Cells (concat (mapi part_cells subs))).
  Proof.
    set (s0 := Sub 0 [] (fun _ => T3 (Cube 0 0 [])) (fun _ => Err RuntimeError) (fun _ _ _ _ => Err RuntimeError)).
    unfold items. rewrite (mix_ll_loop thetas subs ws Ps Hne Hlw HlP Hsub data mask Hmask RNone (fun k => Cells (part_cells k (nth k subs s0)))).
    - replace (mapM cells_of _) with (Ok (map (fun k => part_cells k (nth k subs s0)) (seq 0 (length subs)))).
      + cbn [bind]. do 3 f_equal. apply nth_error_ext; intro k. rewrite nth_error_mapi.
        destruct (nth_error subs k) as [s|] eqn:E; cbn [option_map].
        * assert (k < length subs)%nat by (apply nth_error_Some; congruence). rewrite nth_error_map_seq by auto.
          cbn [Nat.add]. now rewrite (nth_error_nth _ _ _ E).
        * apply nth_error_None in E. apply nth_error_None. now rewrite map_length, seq_length.
      + generalize (seq 0 (length subs)) as l. induction l as [|a l IH]; [reflexivity|].
        cbn [map mapM cells_of bind]. now rewrite <- IH.
    - intros k s w Hs Hw. rewrite (nth_error_nth _ _ _ Hs).
      destruct (pick thetas subs ws Ps Hlw HlP Hsub k s Hs) as (w' & P & Ew & EP & _). rewrite Hw in Ew. injection Ew as <-.
      now apply (part_cells_eq k s w P).
  Qed.
End Cells.
Lemma offset_scale N ns k : offset (map (fun I => N * I)%nat ns) k = (N * offset ns k)%nat.
Proof.
  revert k; induction ns as [|a ns IH]; intros [|k]; unfold offset in *; cbn [map firstn]; try (cbn; lia).
  change (list_sum (N * a :: firstn k (map (fun I => N * I) ns)))%nat with (N * a + list_sum (firstn k (map (fun I => N * I) ns)))%nat.
  change (list_sum (a :: firstn k ns)) with (a + list_sum (firstn k ns))%nat. rewrite IH. lia.
Qed.
Lemma list_sum_scale N ns : list_sum (map (fun I => N * I)%nat ns) = (N * list_sum ns)%nat.
Proof.
  induction ns as [|a ns IH]; [cbn; lia|]. cbn [map]. change (list_sum (N * a :: map (fun I => N * I) ns))%nat with (N * a + list_sum (map (fun I => N * I) ns))%nat.
  change (list_sum (a :: ns)) with (a + list_sum ns)%nat. rewrite IH. lia.
Qed.
Lemma parts_lengths thetas subs mask p :
  map (@length fl) (mapi (part_cells thetas subs mask p) subs) = map (fun I => length thetas * I)%nat (map sb_items subs).
Proof.
  apply nth_error_ext; intro k. rewrite !nth_error_map, nth_error_mapi. destruct (nth_error subs k); cbn [option_map]; [|reflexivity].
  f_equal. unfold part_cells. now rewrite map_length, seq_length.
Qed.
Lemma concat_parts_length thetas subs mask p :
  length (concat (mapi (part_cells thetas subs mask p) subs)) = (length thetas * mix_items subs)%nat.
Proof. rewrite length_concat_sum, parts_lengths. apply list_sum_scale. Qed.
Lemma concat_parts_nth thetas subs mask p k s n j : nth_error subs k = Some s -> (n < length thetas)%nat -> (j < sb_items s)%nat ->
  nth_error (concat (mapi (part_cells thetas subs mask p) subs)) (length thetas * first_item subs k + (n * sb_items s + j)) =
  Some (if masked mask n (first_item subs k + j) then None else Some (Fin (ln (p n (first_item subs k + j)%nat)))).
Proof.
  intros Hs Hn Hj.
  assert (Hk : nth_error (mapi (part_cells thetas subs mask p) subs) k = Some (part_cells thetas subs mask p k s)) by now rewrite nth_error_mapi, Hs.
  assert (Hq : (n * sb_items s + j < length thetas * sb_items s)%nat) by nia.
  change (first_item subs k) with (offset (map sb_items subs) k). rewrite <- offset_scale, <- (parts_lengths thetas subs mask p).
  erewrite nth_error_concat; [|exact Hk|unfold part_cells; rewrite map_length, seq_length; exact Hq].
  unfold part_cells. rewrite nth_error_map_seq by auto. cbn [Nat.add]. cbv zeta. now rewrite pos_div, pos_mod by auto.
Qed.
Lemma mix_max_cats subs : mix_max subs = list_max (concat (map sb_cats subs)).
Proof.
  unfold mix_max. induction subs as [|s subs IH]; [reflexivity|]. cbn [map concat]. rewrite list_max_app.
  change (list_max (sb_max s :: map sb_max subs)) with (Nat.max (sb_max s) (list_max (map sb_max subs))). rewrite IH. reflexivity.
Qed.

(** ** Mixes that fail *)
Lemma mapM_as2_inv ts : mapM as2 ts = Err RuntimeError \/ exists ws, mapM as2 ts = Ok ws /\ ts = map T2 ws.
Proof.
  induction ts as [|[w|c] ts IH]; cbn [mapM as2 bind]; auto.
  - right. now exists [].
  - destruct IH as [->|(ws & -> & ->)]; cbn [bind]; auto. right. now exists (w :: ws).
Qed.
Lemma mapM_as3_inv ts : mapM as3 ts = Err RuntimeError \/ exists cs, mapM as3 ts = Ok cs /\ ts = map T3 cs.
Proof.
  induction ts as [|[w|c] ts IH]; cbn [mapM as3 bind]; auto.
  - right. now exists [].
  - destruct IH as [->|(ws & -> & ->)]; cbn [bind]; auto. right. now exists (c :: ws).
Qed.
Lemma cat_tensors_inv ts : cat_tensors ts = Err RuntimeError \/
  (exists ws rows, ts = map T2 ws /\ cat_tensors ts = Ok (T2 (Wide (list_sum (map w_cols ws)) rows))) \/
  (exists cs M rows, ts = map T3 cs /\ cat_tensors ts = Ok (T3 (Cube (list_sum (map cb_items cs)) M rows))).
Proof.
  assert (H2 : forall ts, bind (mapM as2 ts) (fun ws => rmap T2 (cat2 ws)) = Err RuntimeError \/
    (exists ws rows, ts = map T2 ws /\ bind (mapM as2 ts) (fun ws => rmap T2 (cat2 ws)) = Ok (T2 (Wide (list_sum (map w_cols ws)) rows)))).
  { clear. intro ts. destruct (mapM_as2_inv ts) as [->|(ws & -> & ->)]; cbn [bind]; auto.
    destruct ws as [|w ws]; cbn [cat2 rmap]; auto. destruct (forallb _ ws); cbn [rmap]; auto.
    right. eexists (w :: ws), _. split; reflexivity. }
  destruct ts as [|[w|c] ts].
  - left. reflexivity.
  - destruct (H2 (T2 w :: ts)) as [H|H]; [left; exact H|right; left; exact H].
  - unfold cat_tensors. destruct (mapM_as3_inv (T3 c :: ts)) as [->|(cs & -> & E)]; cbn [bind]; auto.
    destruct cs as [|c' cs]; cbn [cat3 rmap]; auto. destruct (forallb _ cs); cbn [rmap]; auto.
    right. right. exists (c' :: cs). do 2 eexists. split; [exact E|reflexivity].
Qed.
Lemma list_sum_le_strict : forall (l r : list nat), length l = length r ->
  (forall k a b, nth_error l k = Some a -> nth_error r k = Some b -> (a <= b)%nat) ->
  (list_sum l <= list_sum r)%nat /\
  ((exists k a b, nth_error l k = Some a /\ nth_error r k = Some b /\ (a < b)%nat) -> (list_sum l < list_sum r)%nat).
Proof.
  induction l as [|x l IH]; intros [|y r] Hlen H; cbn in Hlen; try lia.
  - split; [lia|]. intros (k & a & b & Ha & _). destruct k; discriminate.
  - change (list_sum (x :: l)) with (x + list_sum l)%nat. change (list_sum (y :: r)) with (y + list_sum r)%nat.
    destruct (IH r) as [H1 H2]; [lia|intros k; exact (H (S k))|]. pose proof (H O x y eq_refl eq_refl). split; [lia|].
    intros ([|k] & a & b & Ha & Hb & Hlt).
    + cbn in Ha, Hb. injection Ha as ->. injection Hb as ->. lia.
    + assert (list_sum l < list_sum r)%nat by (apply H2; exists k, a, b; auto). lia.
Qed.
Lemma part_width thetas s : documented_part s -> 
  (exists w, sb_forward s thetas = T2 w /\ (w_cols w <= sb_max s * sb_items s)%nat) \/
  (exists c, sb_forward s thetas = T3 c /\ (cb_items c <= sb_max s * sb_items s)%nat).
Proof.
  intros [(nanl & lv & cats & fwd & ->)|[(nanl & m & ->)|[(nanl & m & ->)|(nanl & lv & cats & fwd & -> & Hc)]]].
  - left. eexists; split; [reflexivity|]. unfold sb_max, sb_items; cbn [sb_cats logit_sub w_cols]. rewrite Nat.mul_comm. apply Nat.le_refl.
  - left. eexists; split; [reflexivity|]. unfold sb_max, sb_items; cbn [sb_cats grm_sub w_cols]. unfold p_items, p_max. rewrite Nat.mul_comm. apply Nat.le_refl.
  - left. eexists; split; [reflexivity|]. unfold sb_max, sb_items; cbn [sb_cats thpl_sub w_cols]. rewrite repeat_length.
    destruct (thpl_items m) eqn:E; [cbn; lia|]. rewrite repeat_max by lia. lia.
  - right. eexists; split; [reflexivity|]. unfold sb_max, sb_items; cbn [sb_cats table_sub cb_items].
    destruct cats as [|K cats']; [cbn; lia|]. pose proof (cats_max_pos (K :: cats') Hc ltac:(cbn; lia)). nia.
Qed.
Lemma unsupported_width thetas s : unsupported_part s ->
  (exists w, sb_forward s thetas = T2 w /\ (w_cols w < sb_max s * sb_items s)%nat) \/
  (exists c, sb_forward s thetas = T3 c /\ (cb_items c < sb_max s * sb_items s)%nat).
Proof.
  intros [(nanl & m & -> & Hi)|(nanl & lv & cats & fwd & -> & Hi & HM)].
  - left. eexists; split; [reflexivity|]. unfold sb_max, sb_items; cbn [sb_cats thpl_sub w_cols]. rewrite repeat_length, repeat_max by lia. lia.
  - right. eexists; split; [reflexivity|]. unfold sb_max, sb_items; cbn [sb_cats table_sub cb_items]. nia.
Qed.
Lemma mix_unsupported thetas subs : Forall documented_part subs -> Exists unsupported_part subs ->
  mix_item_probabilities subs thetas = Err RuntimeError /\
  forall red data mask, bind (mix_forward subs thetas) (fun o => mix_log_likelihood subs red data o mask) = Err RuntimeError.
Proof.
  intros HF HE.
  assert (Hsplit : mix_forward subs thetas = Err RuntimeError \/
     exists t, mix_forward subs thetas = Ok t /\ split_tensor (mix_sizes subs) t = Err RuntimeError).
  { unfold mix_forward. destruct (cat_tensors_inv (map (fun s => sb_forward s thetas) subs)) as [E|[(ws & rows & Et & E)|(cs & M & rows & Et & E)]]; auto; right.
    - eexists; split; [exact E|]. unfold split_tensor, split2. cbn [w_cols w_rows].
      assert (Hk : forall k s, nth_error subs k = Some s -> exists w, nth_error ws k = Some w /\ sb_forward s thetas = T2 w).
      { intros k s Hs. assert (H : nth_error (map (fun s => sb_forward s thetas) subs) k = nth_error (map T2 ws) k) by now rewrite Et.
        rewrite !nth_error_map, Hs in H. destruct (nth_error ws k) as [w|]; cbn in H; [|discriminate]. injection H as H. eauto. }
      assert (Hlen : length (map w_cols ws) = length (mix_sizes subs)).
      { unfold mix_sizes. rewrite !map_length. transitivity (length (map T2 ws)); [now rewrite map_length|].
        rewrite <- Et. apply map_length. }
      destruct (list_sum_le_strict (map w_cols ws) (mix_sizes subs) Hlen) as [_ Hlt].
      { intros k a b Ha Hb. unfold mix_sizes in Hb. rewrite nth_error_map in Ha, Hb. destruct (nth_error subs k) as [s|] eqn:Es; [|discriminate].
        destruct (Hk k s Es) as (w & Ew & Ef). rewrite Ew in Ha. cbn in Ha, Hb. injection Ha as <-. injection Hb as <-.
        rewrite Forall_forall in HF. destruct (part_width thetas s (HF s (nth_error_In _ _ Es))) as [(w' & E' & H)|(c & E' & H)]; [|congruence].
        replace w with w' by congruence. exact H. }
      destruct (Nat.eqb_spec (list_sum (mix_sizes subs)) (list_sum (map w_cols ws))) as [Heq|_]; [|reflexivity].
      exfalso. assert (list_sum (map w_cols ws) < list_sum (mix_sizes subs))%nat; [|lia]. apply Hlt.
      apply Exists_exists in HE as (s & Hin & Hu). apply In_nth_error in Hin as [k Es]. destruct (Hk k s Es) as (w & Ew & Ef).
      exists k, (w_cols w), (sb_max s * sb_items s)%nat. unfold mix_sizes. rewrite !nth_error_map, Es, Ew. repeat split.
      destruct (unsupported_width thetas s Hu) as [(w' & E' & H)|(c & E' & H)]; [|congruence]. replace w with w' by congruence. exact H.
    - eexists; split; [exact E|]. unfold split_tensor, split2. cbn [w_cols w_rows cb_items].
      assert (Hk : forall k s, nth_error subs k = Some s -> exists w, nth_error cs k = Some w /\ sb_forward s thetas = T3 w).
      { intros k s Hs. assert (H : nth_error (map (fun s => sb_forward s thetas) subs) k = nth_error (map T3 cs) k) by now rewrite Et.
        rewrite !nth_error_map, Hs in H. destruct (nth_error cs k) as [w|]; cbn in H; [|discriminate]. injection H as H. eauto. }
      assert (Hlen : length (map cb_items cs) = length (mix_sizes subs)).
      { unfold mix_sizes. rewrite !map_length. transitivity (length (map T3 cs)); [now rewrite map_length|].
        rewrite <- Et. apply map_length. }
      destruct (list_sum_le_strict (map cb_items cs) (mix_sizes subs) Hlen) as [_ Hlt].
      { intros k a b Ha Hb. unfold mix_sizes in Hb. rewrite nth_error_map in Ha, Hb. destruct (nth_error subs k) as [s|] eqn:Es; [|discriminate].
        destruct (Hk k s Es) as (w & Ew & Ef). rewrite Ew in Ha. cbn in Ha, Hb. injection Ha as <-. injection Hb as <-.
        rewrite Forall_forall in HF. destruct (part_width thetas s (HF s (nth_error_In _ _ Es))) as [(w' & E' & H)|(c & E' & H)]; [congruence|].
        replace w with c by congruence. exact H. }
      destruct (Nat.eqb_spec (list_sum (mix_sizes subs)) (list_sum (map cb_items cs))) as [Heq|_]; [|reflexivity].
      exfalso. assert (list_sum (map cb_items cs) < list_sum (mix_sizes subs))%nat; [|lia]. apply Hlt.
      apply Exists_exists in HE as (s & Hin & Hu). apply In_nth_error in Hin as [k Es]. destruct (Hk k s Es) as (w & Ew & Ef).
      exists k, (cb_items w), (sb_max s * sb_items s)%nat. unfold mix_sizes. rewrite !nth_error_map, Es, Ew. repeat split.
      destruct (unsupported_width thetas s Hu) as [(w' & E' & H)|(c & E' & H)]; [congruence|]. replace w with c by congruence. exact H. }
  unfold mix_item_probabilities. destruct Hsplit as [->|(t & -> & Es)]; cbn [bind]; [split; reflexivity|].
  split.
  - unfold mix_probs. now rewrite Es.
  - intros red data mask. unfold mix_log_likelihood. now rewrite Es.
Qed.
