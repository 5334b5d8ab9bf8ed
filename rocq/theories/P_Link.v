(** Proofs about the criterion of linking by common items. *)
From Verif Require Import Base BaseFacts RBase RFacts M_Logit S_Logit P_Logit M_Lik S_Lik M_Est M_Scale S_Pop P_Lik3 P_Est5 P_Stat3 P_Pop6 P_Row M_Link S_Link.
Import List.
Local Open Scope R_scope.

(** ** Selected items *)
Lemma norm_index_named items z : item_named items z -> norm_index items z = Some (Z.to_nat (if (z <? 0)%Z then z + Z.of_nat items else z)).
Proof.
  intros H. unfold norm_index, item_named in *. destruct (Z.leb_spec 0 z); destruct (Z.ltb_spec z 0); try lia; cbn [andb].
  - destruct (Z.ltb_spec z (Z.of_nat items)); [reflexivity|lia].
  - destruct (Z.leb_spec (- Z.of_nat items) z); [reflexivity|lia].
Qed.
Lemma norm_index_unnamed items z : ~ item_named items z -> norm_index items z = None.
Proof.
  intros H. unfold norm_index, item_named in *. destruct (Z.leb_spec 0 z); destruct (Z.ltb_spec z (Z.of_nat items)); destruct (Z.leb_spec (- Z.of_nat items) z); destruct (Z.ltb_spec z 0); cbn [andb]; lia || reflexivity.
Qed.
Lemma named_lt items idx j : Forall (item_named items) idx -> (j < length idx)%nat -> (named items idx j < items)%nat.
Proof.
  intros HF Hj. pose proof (proj1 (Forall_nth _ _) HF j 0%Z Hj) as H. unfold item_named, named in *. cbv zeta. destruct (Z.ltb_spec (nth j idx 0%Z) 0); lia.
Qed.
Lemma pick_items_ok {A} (d : A) items idx row : Forall (item_named items) idx -> length row = items ->
  pick_items items idx row = Ok (map (fun j => nth (named items idx j) row d) (seq 0 (length idx))).
Proof.
  intros HF HL. unfold pick_items. apply (mapM_index _ (fun j => nth (named items idx j) row d) idx 0). intros j z Ez. cbn [Nat.add].
  assert (Hj : (j < length idx)%nat) by (apply nth_error_Some; congruence). pose proof (named_lt items idx j HF Hj) as HN.
  rewrite (norm_index_named items z) by (rewrite Forall_forall in HF; apply HF; eapply nth_error_In; eauto).
  unfold named in HN |- *. cbv zeta in HN |- *. rewrite (nth_error_nth _ _ 0%Z Ez) in *. now rewrite (nth_error_nth_lt row _ d) by (rewrite HL; exact HN).
Qed.
Lemma pick_items_refused {A} items idx (row : list A) : length row = items -> Exists (fun z => ~ item_named items z) idx -> pick_items items idx row = Err IndexError.
Proof.
  intros HL HE. unfold pick_items. apply mapM_Err.
  - intros z _. destruct (norm_index items z) as [j|]; [|now right]. destruct (nth_error row j); [left; eauto|now right].
  - apply Exists_exists in HE. destruct HE as (z & Hz & Hn). exists z. split; [exact Hz|]. now rewrite norm_index_unnamed.
Qed.
Lemma pick_table lv cats M probs p idx thetas : row_model lv cats M probs p -> Forall (fun t => length t = lv) thetas -> Forall (item_named (length cats)) idx ->
  mapM (pick_items (length cats) idx) (probs thetas) =
  Ok (map (fun t => map (fun j => map (fun k => Some (p t (named (length cats) idx j) k)) (seq 0 M)) (seq 0 (length idx))) thetas).
Proof.
  intros HR HF HI. rewrite (row_model_table lv cats M probs p thetas HR HF).
  erewrite (mapM_total _ (fun row => map (fun j => nth (named (length cats) idx j) row []) (seq 0 (length idx)))).
  - rewrite map_map. f_equal. apply map_ext. intro t. apply map_ext_in. intros j Hj. apply in_seq in Hj.
    pose proof (named_lt _ _ j HI ltac:(lia)) as HN. apply nth_error_nth. rewrite nth_error_map, nth_error_seq by exact HN. reflexivity.
  - intros row Hr. apply in_map_iff in Hr. destruct Hr as (t & <- & _). apply pick_items_ok; [exact HI|]. now rewrite map_length, seq_length.
Qed.

(** ** Flattening *)
Lemma combine_app {A B} (a a' : list A) (b b' : list B) : length a = length b -> combine (a ++ a') (b ++ b') = combine a b ++ combine a' b'.
Proof. revert b. induction a as [|x a IH]; intros [|y b] H; try discriminate; [reflexivity|]. cbn [app combine]. f_equal. apply IH. cbn [length] in H. lia. Qed.
Lemma combine_concat {A B C D} (f : A -> list C) (g : B -> list D) J : (forall a, length (f a) = J) -> (forall b, length (g b) = J) -> forall l t, length l = length t ->
  combine (concat (map f l)) (concat (map g t)) = concat (zip_with (fun a b => combine (f a) (g b)) l t).
Proof.
  intros Hf Hg. induction l as [|a l IH]; intros [|b t] H; try discriminate; [reflexivity|]. cbn [map concat zip_with]. rewrite combine_app by (rewrite Hf, Hg; reflexivity). f_equal. apply IH. cbn [length] in H. lia.
Qed.
Lemma combine_maps {A B C} (f : A -> B) (g : A -> C) l : combine (map f l) (map g l) = map (fun x => (f x, g x)) l.
Proof. induction l as [|x l IH]; [reflexivity|]. cbn [map combine]. now rewrite IH. Qed.
Lemma zip_with_maps {A B C D} (h : B -> C -> D) (f : A -> B) (g : A -> C) l : zip_with h (map f l) (map g l) = map (fun x => h (f x) (g x)) l.
Proof. induction l as [|x l IH]; [reflexivity|]. cbn [map zip_with]. now rewrite IH. Qed.
Lemma zip_with_index {A B C} (h : A -> B -> C) da db : forall l t, length l = length t -> zip_with h l t = map (fun r => h (nth r l da) (nth r t db)) (seq 0 (length t)).
Proof.
  intros l t H. apply nth_error_ext. intro r. rewrite nth_error_zip_with, nth_error_map. destruct (Nat.lt_ge_cases r (length t)) as [Hr|Hr].
  - rewrite (nth_error_nth_lt l r da), (nth_error_nth_lt t r db), nth_error_seq by lia. reflexivity.
  - rewrite (proj2 (nth_error_None l r)) by lia. rewrite (proj2 (nth_error_None (seq 0 (length t)) r)) by (rewrite seq_length; lia). reflexivity.
Qed.
Lemma rsum_concat_map {A} (f : A -> list R) l : rsum (concat (map f l)) = rsum (map (fun x => rsum (f x)) l).
Proof. induction l as [|x l IH]; [reflexivity|]. cbn [map concat rsum]. now rewrite rsum_app, IH. Qed.
Lemma rsum_concat2 {A} (f : A -> list (list R)) l : rsum (concat (concat (map f l))) = rsum (map (fun x => rsum (concat (f x))) l).
Proof. induction l as [|x l IH]; [reflexivity|]. cbn [map concat rsum]. now rewrite concat_app, rsum_app, IH. Qed.
Lemma rsum_map_seq f n : rsum (map f (seq 0 n)) = sumn n f.
Proof. apply rsum_index; [now rewrite map_length, seq_length|]. intros k Hk. now rewrite nth_error_map, nth_error_seq. Qed.
Lemma flattened_length {A B} (f : A -> list B) J l : (forall a, length (f a) = J) -> length (concat (map f l)) = (length l * J)%nat.
Proof. intros H. induction l as [|x l IH]; [reflexivity|]. cbn [map concat length]. rewrite app_length, H, IH. lia. Qed.

(** ** One entry *)
Lemma kl_point_value eps q p : 0 <= p -> 0 < q + eps ->
  kl_point eps (Some q) (Some p) = Some (Fin (if Req_EM_T p 0 then 0 else p * (ln p - ln (q + eps)))).
Proof.
  intros Hp Hq. unfold kl_point, xlogx, of_opt, oplus_r, flog. destruct (Rlt_dec 0 (q + eps)) as [_|H]; [|contradiction].
  destruct (Req_EM_T p 0) as [->|Hn].
  - unfold fmul, fsub, fneg, fadd. do 2 f_equal. ring.
  - destruct (Rlt_dec 0 p) as [_|H]; [|lra]. unfold fmul, fsub, fneg, fadd. do 2 f_equal. ring.
Qed.

Section two_models.
  Context (lv lv' : nat) (cats cats' : list nat) (M M' : nat) (probs probs' : list (list R) -> list (list (list (option R)))) (p q : list R -> nat -> nat -> R)
    (HP : row_model lv cats M probs p) (HQ : row_model lv' cats' M' probs' q) (idx idx' : list Z) (thetas linked : list (list R))
    (HT : Forall (fun t => length t = lv) thetas) (HL : Forall (fun t => length t = lv') linked)
    (HI : Forall (item_named (length cats)) idx) (HI' : Forall (item_named (length cats')) idx') (HLen : length linked = length thetas) (HJ : length idx' = length idx).
  Lemma loss_unfolded eps : link_loss eps (length cats) (length cats') probs probs' idx idx' thetas linked =
    bind (mapM (fun qp => kl_row eps (fst qp) (snd qp)) (concat (map (fun r => map (fun j =>
      (map (fun k => Some (q (nth r linked []) (named (length cats') idx' j) k)) (seq 0 M'), map (fun k => Some (p (nth r thetas []) (named (length cats) idx j) k)) (seq 0 M)))
        (seq 0 (length idx))) (seq 0 (length thetas))))) (fun rows => Ok (fdiv_nat (fsum (concat rows)) (length thetas * length idx))).
  Proof using HP HQ HT HL HI HI' HLen HJ.
    unfold link_loss. rewrite (pick_table lv cats M probs p idx thetas HP HT HI). cbn [bind]. rewrite (pick_table lv' cats' M' probs' q idx' linked HQ HL HI'). cbn [bind].
    rewrite (flattened_length _ (length idx)) by (intro; now rewrite map_length, seq_length).
    rewrite (flattened_length _ (length idx)) by (intro; now rewrite map_length, seq_length, HJ). rewrite HLen, Nat.eqb_refl. cbn [negb].
    rewrite (combine_concat _ _ (length idx)); [|intro; now rewrite map_length, seq_length, HJ|intro; now rewrite map_length, seq_length|exact HLen].
    rewrite (zip_with_index _ [] []) by exact HLen. rewrite HJ.
    do 3 f_equal. apply map_ext. intro r. apply combine_maps.
  Qed.
  Lemma widths_error eps : M <> M' -> (2 <= M)%nat -> (2 <= M')%nat -> thetas <> [] -> idx <> [] ->
    link_loss eps (length cats) (length cats') probs probs' idx idx' thetas linked = Err RuntimeError.
  Proof using HP HQ HT HL HI HI' HLen HJ.
    intros HM H2 H2' Ht Hi. rewrite loss_unfolded. destruct thetas as [|t ts]; [congruence|]. destruct idx as [|z zs]; [congruence|].
    cbn [length seq map concat app mapM fst snd]. unfold kl_row at 1. rewrite !map_length, !seq_length.
    destruct (Nat.eqb_spec M' M) as [E|_]; [congruence|]. destruct M as [|[|m]]; [lia|lia|]. destruct M' as [|[|m']]; [lia|lia|]. reflexivity.
  Qed.
End two_models.
Lemma bad_target_index eps items items' probs probs' idx idx' thetas linked target :
  mapM (pick_items items idx) (probs thetas) = Ok target -> probs' linked <> [] -> Forall (fun row => length row = items') (probs' linked) ->
  Exists (fun z => ~ item_named items' z) idx' -> link_loss eps items items' probs probs' idx idx' thetas linked = Err IndexError.
Proof.
  intros E Hn HF HX. unfold link_loss. rewrite E. cbn [bind]. destruct (probs' linked) as [|row rows]; [congruence|]. inversion HF; subst. cbn [mapM].
  rewrite pick_items_refused by (assumption || reflexivity). reflexivity.
Qed.

Section same_width.
  Context (lv lv' : nat) (cats cats' : list nat) (M : nat) (probs probs' : list (list R) -> list (list (list (option R)))) (p q : list R -> nat -> nat -> R)
    (HP : row_model lv cats M probs p) (HQ : row_model lv' cats' M probs' q) (idx idx' : list Z) (thetas linked : list (list R))
    (HT : Forall (fun t => length t = lv) thetas) (HL : Forall (fun t => length t = lv') linked)
    (HI : Forall (item_named (length cats)) idx) (HI' : Forall (item_named (length cats')) idx') (HLen : length linked = length thetas) (HJ : length idx' = length idx)
    (Hn : thetas <> []) (Hj : idx <> []).
  Lemma p_valid r j : (r < length thetas)%nat -> (j < length idx)%nat -> exists K, (1 <= K <= M)%nat /\ valid_distribution K M (p (nth r thetas []) (named (length cats) idx j)).
  Proof using HP HT HI.
    intros Hr H. pose proof (named_lt _ _ j HI H) as HN. exists (nth (named (length cats) idx j) cats O). apply (row_model_distribution lv cats M probs p); [exact HP| |now apply nth_error_nth_lt].
    apply (proj1 (Forall_nth _ _) HT r [] Hr).
  Qed.
  Lemma q_valid r j : (r < length thetas)%nat -> (j < length idx)%nat -> exists K, (1 <= K <= M)%nat /\ valid_distribution K M (q (nth r linked []) (named (length cats') idx' j)).
  Proof using HQ HL HI' HLen HJ.
    intros Hr H. pose proof (named_lt _ _ j HI' ltac:(lia)) as HN. exists (nth (named (length cats') idx' j) cats' O). apply (row_model_distribution lv' cats' M probs' q); [exact HQ| |now apply nth_error_nth_lt].
    apply (proj1 (Forall_nth _ _) HL r []). lia.
  Qed.
  Lemma loss_value eps : 0 < eps -> link_loss eps (length cats) (length cats') probs probs' idx idx' thetas linked =
    Ok (Some (Fin (mean_divergence M eps (length cats) (length cats') p q idx idx' thetas linked))).
  Proof using HP HQ HT HL HI HI' HLen HJ Hn Hj.
    intros He. rewrite (loss_unfolded lv lv' cats cats' M M probs probs' p q) by assumption.
    pose (term := fun r j k => let a := p (nth r thetas []) (named (length cats) idx j) k in if Req_EM_T a 0 then 0 else a * (ln a - ln (q (nth r linked []) (named (length cats') idx' j) k + eps))).
    assert (E : mapM (fun qp => kl_row eps (fst qp) (snd qp)) (concat (map (fun r => map (fun j =>
      (map (fun k => Some (q (nth r linked []) (named (length cats') idx' j) k)) (seq 0 M), map (fun k => Some (p (nth r thetas []) (named (length cats) idx j) k)) (seq 0 M)))
        (seq 0 (length idx))) (seq 0 (length thetas))))
      = Ok (map (map (fun x => Some (Fin x))) (concat (map (fun r => map (fun j => map (term r j) (seq 0 M)) (seq 0 (length idx))) (seq 0 (length thetas)))))).
    { erewrite (mapM_total _ (fun qp => zip_with (kl_point eps) (fst qp) (snd qp))).
      - f_equal. rewrite !concat_map, !map_map. f_equal. apply map_ext_in. intros r Hr. apply in_seq in Hr. rewrite !map_map. apply map_ext_in. intros j Hj'. apply in_seq in Hj'. cbn [fst snd]. rewrite zip_with_maps, map_map.
        apply map_ext_in. intros k Hk. apply in_seq in Hk. destruct (p_valid r j ltac:(lia) ltac:(lia)) as (K & _ & P0 & _). destruct (q_valid r j ltac:(lia) ltac:(lia)) as (K' & _ & Q0 & _).
        rewrite kl_point_value; [reflexivity|apply P0; lia|]. specialize (Q0 k ltac:(lia)). lra.
      - intros qp Hin. apply in_concat in Hin. destruct Hin as (l & Hl & Hin). apply in_map_iff in Hl. destruct Hl as (r & <- & _). apply in_map_iff in Hin. destruct Hin as (j & <- & _).
        cbn [fst snd]. unfold kl_row. now rewrite !map_length, !seq_length, Nat.eqb_refl. }
    rewrite E. cbn [bind]. do 2 f_equal. rewrite <- concat_map, fsum_fin. rewrite fdiv_nat_fin.
    - unfold mean_divergence, mean2. do 3 f_equal. rewrite rsum_concat2, rsum_map_seq. apply sumn_ext. intros r _. rewrite rsum_concat_map, rsum_map_seq. apply sumn_ext. intros j _. rewrite rsum_map_seq. reflexivity.
    - destruct thetas; [congruence|]. destruct idx; [congruence|]. cbn [length]. lia.
  Qed.
End same_width.

(** ** The divergence bounds the distance *)
Lemma kl_term_hellinger p q : 0 <= p -> 0 < q -> (sqrt p - sqrt q) ^ 2 + p - q <= (if Req_EM_T p 0 then 0 else p * (ln p - ln q)).
Proof.
  intros Hp Hq. assert (Eq : sqrt q * sqrt q = q) by (apply sqrt_sqrt; lra). destruct (Req_EM_T p 0) as [->|Hn].
  - rewrite sqrt_0. nra.
  - assert (Hp' : 0 < p) by lra. assert (Ep : sqrt p * sqrt p = p) by (apply sqrt_sqrt; lra). pose proof (sqrt_lt_R0 p Hp') as Sp. pose proof (sqrt_lt_R0 q Hq) as Sq.
    assert (B : ln (sqrt q / sqrt p) <= sqrt q / sqrt p - 1) by (apply ln_le_sub1; apply Rdiv_lt_0_compat; assumption).
    unfold Rdiv at 1 in B. rewrite ln_mult, ln_Rinv in B by (assumption || now apply Rinv_0_lt_compat).
    assert (L : ln p = 2 * ln (sqrt p)) by (rewrite <- Ep at 1; rewrite ln_mult by assumption; ring). assert (L' : ln q = 2 * ln (sqrt q)) by (rewrite <- Eq at 1; rewrite ln_mult by assumption; ring).
    rewrite L, L'. assert (C : p * (ln (sqrt p) - ln (sqrt q)) >= p - sqrt p * sqrt q).
    { assert (D : p * (sqrt q / sqrt p) = sqrt p * sqrt q) by (rewrite <- Ep at 1; field; lra). assert (X : p * (ln (sqrt q) + - ln (sqrt p)) <= p * (sqrt q / sqrt p - 1)) by (apply Rmult_le_compat_l; lra). nra. }
    nra.
Qed.
Lemma kl_hellinger M p q : (forall k, (k < M)%nat -> 0 <= p k) -> (forall k, (k < M)%nat -> 0 < q k) ->
  hellinger2 M p q + sumn M p - sumn M q <= kl_divergence M p q.
Proof.
  intros Hp Hq. unfold hellinger2, kl_divergence. replace (sumn M (fun k => (sqrt (p k) - sqrt (q k)) ^ 2) + sumn M p - sumn M q) with (sumn M (fun k => (sqrt (p k) - sqrt (q k)) ^ 2 + p k - q k)).
  - apply sumn_le. intros k Hk. apply kl_term_hellinger; [now apply Hp|now apply Hq].
  - clear. induction M as [|M IH]; cbn [sumn]; [ring|rewrite IH; ring].
Qed.
Lemma sumn_const n c : sumn n (fun _ => c) = INR n * c.
Proof. induction n as [|n IH]; cbn [sumn]; [cbn; ring|]. rewrite IH, S_INR. ring. Qed.
Lemma smoothed_bound M K K' e p q : valid_distribution K M p -> valid_distribution K' M q -> 0 < e ->
  hellinger2 M p (fun k => q k + e) - INR M * e <= kl_divergence M p (fun k => q k + e).
Proof.
  intros (P0 & P1 & _) (Q0 & Q1 & _) He. pose proof (kl_hellinger M p (fun k => q k + e) P0 ltac:(intros k Hk; specialize (Q0 k Hk); cbn beta; lra)) as H.
  rewrite sumn_plus, P1, Q1, sumn_const in H. lra.
Qed.
Lemma hellinger2_nonneg M p q : 0 <= hellinger2 M p q.
Proof. unfold hellinger2. apply sumn_nonneg. intros k _. apply pow2_ge_0. Qed.
Lemma agreeing_divergence M K e p : valid_distribution K M p -> 0 < e -> kl_divergence M p (fun k => p k + e) <= 0.
Proof.
  intros (P0 & _) He. unfold kl_divergence. assert (Z : sumn M (fun _ => 0) = 0) by (rewrite sumn_const; ring). apply Rle_trans with (sumn M (fun _ => 0)); [|lra]. apply sumn_le. intros k Hk. destruct (Req_EM_T (p k) 0) as [_|Hn]; [lra|].
  specialize (P0 k Hk). assert (L : ln (p k) < ln (p k + e)) by (apply ln_increasing; lra). nra.
Qed.
Lemma mean2_le n J f g : (forall r j, (r < n)%nat -> (j < J)%nat -> f r j <= g r j) -> (0 < n * J)%nat -> mean2 n J f <= mean2 n J g.
Proof.
  intros H Hn. unfold mean2, Rdiv. apply Rmult_le_compat_r; [left; apply Rinv_0_lt_compat, lt_0_INR, Hn|]. apply sumn_le. intros r Hr. apply sumn_le. intros j Hj. now apply H.
Qed.
Lemma mean2_const n J c : (0 < n * J)%nat -> mean2 n J (fun _ _ => c) = c.
Proof.
  intros H. unfold mean2. rewrite (sumn_ext n _ (fun _ => INR J * c)) by (intros; apply sumn_const). rewrite sumn_const, mult_INR. field.
  split; apply not_0_INR; nia.
Qed.
Lemma mean2_minus n J f c : (0 < n * J)%nat -> mean2 n J (fun r j => f r j - c) = mean2 n J f - c.
Proof.
  intros H. replace (mean2 n J f - c) with (mean2 n J f - mean2 n J (fun _ _ => c)) by (rewrite mean2_const; auto). unfold mean2. unfold Rdiv. rewrite <- Rmult_minus_distr_r. f_equal.
  assert (G : forall n (a b : nat -> R), sumn n (fun i => a i - b i) = sumn n a - sumn n b) by (clear; induction n as [|n IH]; intros; cbn [sumn]; [ring|rewrite IH; ring]).
  rewrite <- G. apply sumn_ext. intros r _. now rewrite <- G.
Qed.
(** One term is at most the number of terms times the mean. *)
Lemma sumn_member n f i : (i < n)%nat -> (forall k, (k < n)%nat -> 0 <= f k) -> f i <= sumn n f.
Proof.
  induction n as [|n IH]; intros Hi H; [lia|]. cbn [sumn]. assert (0 <= sumn n f) by (apply sumn_nonneg; intros; apply H; lia). destruct (Nat.eq_dec i n) as [->|E]; [lra|].
  specialize (IH ltac:(lia) ltac:(intros; apply H; lia)). specialize (H n ltac:(lia)). lra.
Qed.
Lemma mean2_member n J f r j : (r < n)%nat -> (j < J)%nat -> (forall r j, (r < n)%nat -> (j < J)%nat -> 0 <= f r j) -> f r j <= INR (n * J) * mean2 n J f.
Proof.
  intros Hr Hj H. unfold mean2. assert (HN : 0 < INR (n * J)) by (apply lt_0_INR; nia). replace (INR (n * J) * (sumn n (fun r => sumn J (f r)) / INR (n * J))) with (sumn n (fun r => sumn J (f r))) by (field; lra).
  apply Rle_trans with (sumn J (f r)); [apply sumn_member; [exact Hj|intros; now apply H]|].
  apply (sumn_member n (fun r => sumn J (f r))); [exact Hr|]. intros k Hk. apply sumn_nonneg. intros; now apply H.
Qed.
(** From the distance of two distributions to the probabilities of one category. *)
Lemma category_close M K K' e p q k h : valid_distribution K M p -> valid_distribution K' M q -> 0 < e <= 1 / 10 -> (k < M)%nat -> hellinger2 M p (fun k => q k + e) <= h ->
  Rabs (p k - q k) <= e + sqrt (5 * h).
Proof.
  intros (P0 & P1 & _) (Q0 & Q1 & _) He Hk Hh.
  assert (Pk : p k <= 1) by (rewrite <- P1; now apply sumn_member). assert (Qk : q k <= 1) by (rewrite <- Q1; now apply sumn_member). specialize (P0 k Hk). specialize (Q0 k Hk).
  assert (T : (sqrt (p k) - sqrt (q k + e)) ^ 2 <= h) by (eapply Rle_trans; [apply (sumn_member M (fun k => (sqrt (p k) - sqrt (q k + e)) ^ 2) k Hk); intros; apply pow2_ge_0|exact Hh]).
  set (a := sqrt (p k)) in *. set (b := sqrt (q k + e)) in *. assert (Ea : a * a = p k) by (apply sqrt_sqrt; lra). assert (Eb : b * b = q k + e) by (apply sqrt_sqrt; lra).
  assert (A0 : 0 <= a) by apply sqrt_pos. assert (B0 : 0 <= b) by apply sqrt_pos. assert (H0 : 0 <= h) by (eapply Rle_trans; [apply pow2_ge_0|exact T]).
  assert (S : (a + b) ^ 2 <= 5).
  { assert (a <= 1) by nra. assert (b <= 1.05) by nra. nra. }
  assert (D : (p k - (q k + e)) ^ 2 <= 5 * h) by (rewrite <- Ea, <- Eb; replace ((a * a - b * b) ^ 2) with ((a + b) ^ 2 * (a - b) ^ 2) by ring; apply Rmult_le_compat; try apply pow2_ge_0; assumption).
  assert (F : Rabs (p k - (q k + e)) <= sqrt (5 * h)).
  { rewrite <- sqrt_Rsqr_abs. apply sqrt_le_1_alt. unfold Rsqr. replace ((p k - (q k + e)) * (p k - (q k + e))) with ((p k - (q k + e)) ^ 2) by ring. exact D. }
  replace (p k - q k) with ((p k - (q k + e)) + e) by ring. eapply Rle_trans; [apply Rabs_triang|]. rewrite (Rabs_pos_eq e) by lra. lra.
Qed.
