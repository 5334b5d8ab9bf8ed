(** Models built from data. *)
From Coq Require Import Reals Lra.
From Verif Require Import Base BaseFacts RBase RFacts M_Data M_Logit M_State M_Lik M_Make P_Data P_Logit P_Logit2 S_Data S_Logit S_Lik S_Est S_Make.
Import List.
Local Open Scope R_scope.

(** ** Categories *)
Lemma py_max_nat cats : cats <> [] -> py_max (map Z.of_nat cats) = Ok (Z.of_nat (list_max cats)).
Proof.
  intro Hn. unfold py_max. pose proof (max_list_spec (map Z.of_nat cats)) as H. destruct (max_list (map Z.of_nat cats)) as [m|]; [|destruct cats; [congruence|discriminate]].
  destruct H as [HI HM]. f_equal. apply in_map_iff in HI as (K & <- & HK). f_equal. apply Nat.le_antisymm; [now apply list_max_bound|].
  apply list_max_le. apply Forall_forall. intros x Hx. specialize (HM (Z.of_nat x) ltac:(now apply in_map)). lia.
Qed.
Lemma sum_nat cats : fold_right Z.add 0%Z (map Z.of_nat cats) = Z.of_nat (list_sum cats).
Proof. induction cats as [|K cats IH]; [reflexivity|]. unfold list_sum in *. cbn [map fold_right]. rewrite IH. lia. Qed.
Lemma slice_start_nat K M : slice_start (Z.of_nat K) M = K.
Proof. unfold slice_start. destruct (Z.ltb_spec (Z.of_nat K) 0); [lia|]. apply Nat2Z.id. Qed.
Lemma starts_nat cats M : map (fun K => slice_start K M) (map Z.of_nat cats) = cats.
Proof. rewrite map_map. rewrite <- (map_id cats) at 2. apply map_ext. intro K. apply slice_start_nat. Qed.
Lemma build_nat k lv cats rel r : cats <> [] -> relationships (length cats) lv rel = Ok r ->
  build k lv (map Z.of_nat cats) rel =
    let nb := (Z.of_nat (list_sum cats) - Z.of_nat (length cats))%Z in let M := list_max cats in
    match k with
    | KGrm => if (M =? 0)%nat then Err IndexError else Ok (Built (map Z.of_nat cats) lv M r (ctrue (free_bias cats M)))
    | _ => if (nb <? 0)%Z then Err RuntimeError else if (M =? 0)%nat then Err IndexError else Ok (Built (map Z.of_nat cats) lv M r (Z.to_nat nb))
    end.
Proof.
  intros Hn Hr. unfold build, base_init. rewrite py_max_nat by exact Hn. cbn [bind at_max]. rewrite map_length, Hr. cbn [bind].
  destruct (Z.ltb_spec (Z.of_nat (list_max cats)) 0); [lia|]. rewrite Nat2Z.id, starts_nat, sum_nat. reflexivity.
Qed.
Lemma ctrue_app l l' : ctrue (l ++ l') = (ctrue l + ctrue l')%nat.
Proof. unfold ctrue. induction l as [|[] l IH]; cbn in *; lia. Qed.
Lemma zip_with_app {A B C} (f : A -> B -> C) l1 l2 m1 m2 : length l1 = length m1 -> zip_with f (l1 ++ l2) (m1 ++ m2) = zip_with f l1 m1 ++ zip_with f l2 m2.
Proof. revert m1; induction l1 as [|a l1 IH]; intros [|b m1] H; try discriminate; [reflexivity|]. cbn [app zip_with]. f_equal. apply IH. now injection H. Qed.
Lemma free_row K M : (1 <= M)%nat -> (K <= M)%nat -> ctrue (zip_with (fun f m => negb f && negb m) (upd 0 true (repeat false M)) (repeat false (Nat.min K M) ++ repeat true (M - K))) = pred K.
Proof.
  intros HM HK. rewrite Nat.min_l by exact HK. destruct M as [|M]; [lia|]. cbn [repeat upd].
  assert (A : forall n l, ctrue (zip_with (fun f m => negb f && negb m) (repeat false n) (repeat false n ++ l)) = n).
  { intros n l. induction n as [|n IH]; [reflexivity|]. cbn [repeat app zip_with]. unfold ctrue in *. cbn. now rewrite IH. }
  assert (B : forall n, ctrue (zip_with (fun f m => negb f && negb m) (repeat false n) (repeat true n)) = 0%nat).
  { intros n. induction n as [|n IH]; [reflexivity|]. cbn [repeat zip_with]. unfold ctrue in *. cbn. exact IH. }
  destruct K as [|K].
  - cbn [repeat app Nat.sub zip_with]. cbn [negb andb]. change (ctrue (zip_with (fun f m => negb f && negb m) (repeat false M) (repeat true M)) = 0%nat). apply B.
  - cbn [repeat app zip_with pred]. change (ctrue (zip_with (fun f m => negb f && negb m) (repeat false M) (repeat false K ++ repeat true (S M - S K))) = K).
    replace (S M - S K)%nat with (M - K)%nat by lia. replace M with (K + (M - K))%nat at 1 by lia. rewrite repeat_app, zip_with_app, ctrue_app by (now rewrite !repeat_length).
    rewrite <- (app_nil_r (repeat false K)) at 2. rewrite A, B. lia.
Qed.
Lemma ctrue_free_any cats M : (1 <= M)%nat -> Forall (fun K => (K <= M)%nat) cats -> ctrue (free_bias cats M) = list_sum (map pred cats).
Proof.
  intros HM HF. unfold free_bias, first_category, missing_category. induction HF as [|K cats HK HF IH]; [reflexivity|]. cbn [length repeat map concat].
  rewrite zip_with_app, ctrue_app, IH, free_row by (auto; rewrite upd_length, app_length, !repeat_length; lia). unfold list_sum. reflexivity.
Qed.
Lemma max_all cats : Forall (fun K => (K <= list_max cats)%nat) cats.
Proof. apply Forall_forall. intros K HK. now apply list_max_bound. Qed.

(** ** forward *)
Lemma assign_all mask b : length b = ctrue mask -> assign mask b = Ok (full_bias mask b).
Proof. intro H. unfold assign. now rewrite H, Nat.eqb_refl. Qed.
Lemma gpc_run_nat cats lv r nb w b b' thetas : let bu := Built (map Z.of_nat cats) lv (list_max cats) r nb in
  assign (free_bias cats (list_max cats)) b = Ok (full_bias (free_bias cats (list_max cats)) b') ->
  gpc_run bu w b thetas = Ok (gpc_forward {| p_cats := cats; p_lv := lv; p_free := r; p_w := w; p_b := b' |} thetas).
Proof.
  intros bu H. unfold gpc_run, bu_free, bu_missing. cbn [bu bu_max bu_cats bu_rel bu_lv]. rewrite starts_nat, H, map_length. reflexivity.
Qed.
Lemma grm_run_nat cats lv r nb w b thetas : let bu := Built (map Z.of_nat cats) lv (list_max cats) r nb in
  length b = ctrue (free_bias cats (list_max cats)) ->
  grm_run bu w b thetas = Ok (grm_forward {| p_cats := cats; p_lv := lv; p_free := r; p_w := w; p_b := b |} thetas).
Proof.
  intros bu H. unfold grm_run, bu_free, bu_missing. cbn [bu bu_max bu_cats bu_rel bu_lv]. rewrite starts_nat, (assign_all _ _ H), map_length. reflexivity.
Qed.

(** ** Data *)
Lemma infer_ok d : m_rows d <> [] -> infer_categories (m_cols d) (m_rows d) = Ok (map (fun i => option_map (fun m => (m + 1)%Z) (max_list (observed (col_of i (m_rows d))))) (seq 0 (m_cols d))).
Proof. intro H. unfold infer_categories. destruct (m_rows d); [congruence|reflexivity]. Qed.
Lemma at_observed d c z : rectangular d -> (c < m_cols d)%nat -> In z (observed (col_of c (m_rows d))) <-> exists r, at_ (m_rows d) r c = Some (Some z).
Proof.
  intros [_ HF] Hc. rewrite in_observed. apply in_col_of. intros r Hr. rewrite Forall_forall in HF. now rewrite (HF r Hr).
Qed.
Lemma category_of d c m : rectangular d -> (c < m_cols d)%nat -> (0 <= m)%Z -> (forall r z, at_ (m_rows d) r c = Some (Some z) -> (z < m)%Z) -> (exists r, at_ (m_rows d) r c = Some (Some (m - 1)%Z)) ->
  option_map (fun m => (m + 1)%Z) (max_list (observed (col_of c (m_rows d)))) = Some m.
Proof.
  intros HR Hc Hm HU HE. pose proof (max_list_spec (observed (col_of c (m_rows d)))) as HM. destruct (max_list _) as [x|].
  - destruct HM as [HI HX]. apply (at_observed d c x HR Hc) in HI as (r & Hr). pose proof (HU r x Hr). pose proof (HX (m - 1)%Z (proj2 (at_observed d c (m - 1)%Z HR Hc) HE)). cbn. f_equal. lia.
  - apply (at_observed d c (m - 1)%Z HR Hc) in HE. rewrite HM in HE. destruct HE.
Qed.
Lemma categories_of_data d cats : rectangular d -> m_rows d <> [] -> length cats = m_cols d -> (forall c, (c < m_cols d)%nat -> one_more d c (nth c cats O)) ->
  categories_argument None (Some d) = Ok (map Z.of_nat cats).
Proof.
  intros HR Hne HL H. cbn [categories_argument]. rewrite infer_ok by exact Hne. cbn [rmap]. f_equal. apply nth_error_ext. intro c. destruct (Nat.lt_ge_cases c (m_cols d)) as [Hc|Hc].
  - rewrite !nth_error_map, nth_error_seq by exact Hc. cbn [option_map Nat.add]. rewrite (nth_error_nth_lt cats c O) by lia. cbn [option_map]. f_equal.
    destruct (H c Hc) as [HU HE]. rewrite (category_of d c (Z.of_nat (nth c cats O)) HR Hc) by (auto; lia). reflexivity.
  - rewrite (proj2 (nth_error_None _ _)), (proj2 (nth_error_None _ _)); auto; rewrite !map_length; [lia|rewrite seq_length; lia].
Qed.
Lemma largest d c : rectangular d -> (exists r z, at_ (m_rows d) r c = Some (Some z) /\ (-1 <= z)%Z) -> exists K, one_more d c K.
Proof.
  intros HR (r & z & Hr & Hz). pose proof (at_col_lt d r c _ HR Hr) as Hc. pose proof (max_list_spec (observed (col_of c (m_rows d)))) as HM.
  pose proof (proj2 (at_observed d c z HR Hc) (ex_intro _ r Hr)) as HI. destruct (max_list _) as [x|]; [|rewrite HM in HI; destruct HI].
  destruct HM as [HX HU]. pose proof (HU z HI). exists (Z.to_nat (x + 1)).
  split.
  - intros r' z' H'. pose proof (HU z' (proj2 (at_observed d c z' HR Hc) (ex_intro _ r' H'))). lia.
  - rewrite Z2Nat.id by lia. replace (x + 1 - 1)%Z with x by lia. now apply (at_observed d c x HR Hc).
Qed.
Lemma choose_list (P : nat -> nat -> Prop) n : (forall c, (c < n)%nat -> exists K, P c K) -> exists l, length l = n /\ forall c, (c < n)%nat -> P c (nth c l O).
Proof.
  induction n as [|n IH]; intro H; [exists []; split; [reflexivity|lia]|]. destruct IH as (l & HL & Hl); [intros; apply H; lia|]. destruct (H n ltac:(lia)) as (K & HK).
  exists (l ++ [K]). split; [rewrite app_length, HL; cbn; lia|]. intros c Hc. destruct (Nat.eq_dec c n) as [->|].
  - rewrite app_nth2 by lia. now rewrite HL, Nat.sub_diag.
  - rewrite app_nth1 by lia. apply Hl. lia.
Qed.
Lemma data_legal d cats : proper d -> length cats = m_cols d -> (forall c, (c < m_cols d)%nat -> one_more d c (nth c cats O)) -> legal_data cats (m_rows d).
Proof.
  intros (HR & _ & _ & HC) HL H. apply Forall_forall. intros row Hrow. apply In_nth_error in Hrow as (r & Hr). assert (Lr : length row = m_cols d) by (destruct HR as [_ HF]; rewrite Forall_forall in HF; apply HF; eapply nth_error_In; eauto).
  split; [lia|]. intros i c Hc. assert (Hi : (i < m_cols d)%nat) by (rewrite <- Lr; apply nth_error_Some; congruence). destruct c as [z|]; [|now left]. right.
  assert (Ha : at_ (m_rows d) r i = Some (Some z)) by (unfold at_; now rewrite Hr). pose proof (HC r i z Ha). pose proof (proj1 (H i Hi) r z Ha).
  destruct (Z.eq_dec z (-1)) as [->|]; [now left|]. right. exists (Z.to_nat z). rewrite Z2Nat.id by lia. split; [reflexivity|lia].
Qed.
Lemma not_missing d c K : answered d c -> one_more d c K -> (1 <= K)%nat.
Proof. intros (r & z & Hr & Hz) [HU _]. specialize (HU r z Hr). lia. Qed.
Lemma max_positive cats : cats <> [] -> (exists K, In K cats /\ (1 <= K)%nat) -> (1 <= list_max cats)%nat.
Proof. intros _ (K & HI & HK). pose proof (list_max_bound cats K HI). lia. Qed.

(** ** An item without observed cell *)
Lemma sum_with_hole l X h : (0 <= X)%Z -> In h l -> Forall (fun x => (x <= X)%Z) l -> (fold_right Z.add 0 l <= h + (Z.of_nat (length l) - 1) * X)%Z.
Proof.
  intros HX HI HF. assert (G : forall l, Forall (fun x => (x <= X)%Z) l -> (fold_right Z.add 0 l <= Z.of_nat (length l) * X)%Z).
  { clear. intros l HF. induction HF as [|x l H HF IH]; [cbn; lia|]. cbn [fold_right length]; rewrite Nat2Z.inj_succ. nia. }
  induction l as [|x l IH]; [destruct HI|]. pose proof (Forall_inv HF) as Hx. cbv beta in Hx. pose proof (Forall_inv_tail HF) as Ht. cbn [fold_right length]; rewrite Nat2Z.inj_succ. destruct HI as [->|HI].
  - pose proof (G l Ht). nia.
  - specialize (IH HI Ht). nia.
Qed.

(** ** Items without category count as items of a single category *)
Fixpoint eqv (f m m' : list bool) : Prop :=
  match f, m, m' with [], [], [] => True | a :: f, b :: m, b' :: m' => (a = true \/ b = b') /\ eqv f m m' | _, _, _ => False end.
Lemma eqv_app f m m' g n n' : eqv f m m' -> eqv g n n' -> eqv (f ++ g) (m ++ n) (m' ++ n').
Proof.
  revert m m'. induction f as [|a f IH]; intros [|b m] [|b' m'] H G; cbn [eqv app] in *; try contradiction; auto. destruct H. split; auto.
Qed.
Lemma eqv_refl f m : length f = length m -> eqv f m m.
Proof. revert m. induction f as [|a f IH]; intros [|b m] H; try discriminate; cbn; auto. Qed.
Lemma eqv_set {X} f m m' (x y : X) l : eqv f m m' -> set_mask f x (set_mask m y l) = set_mask f x (set_mask m' y l).
Proof.
  unfold set_mask. revert m m' l. induction f as [|a f IH]; intros [|b m] [|b' m'] l H; cbn [eqv] in H; try contradiction; [reflexivity|]. destruct H as [H HE].
  destruct l as [|z l]; [reflexivity|]. cbn [zip_with]. rewrite (IH m m' l HE). destruct H as [-> | ->]; reflexivity.
Qed.
Lemma eqv_free f m m' : eqv f m m' -> zip_with (fun f m => negb f && negb m) f m = zip_with (fun f m => negb f && negb m) f m'.
Proof.
  revert m m'. induction f as [|a f IH]; intros [|b m] [|b' m'] H; cbn [eqv] in H; try contradiction; [reflexivity|]. destruct H as [H HE]. cbn [zip_with]. rewrite (IH m m' HE). destruct H as [-> | ->]; reflexivity.
Qed.
Lemma eqv_floor cats M : (1 <= M)%nat -> eqv (first_category (length cats) M) (missing_category cats M) (missing_category (map (Nat.max 1) cats) M).
Proof.
  intro HM. unfold first_category, missing_category. induction cats as [|K cats IH]; [exact Logic.I|]. cbn [length repeat map concat]. apply eqv_app; [|exact IH].
  destruct K as [|K]; [|rewrite Nat.max_r by lia; apply eqv_refl; rewrite upd_length, app_length, !repeat_length; lia].
  destruct M as [|M]; [lia|]. cbn [Nat.max Nat.min repeat upd app Nat.sub]. rewrite Nat.sub_0_r. replace (Nat.min 0 M) with O by (destruct M; reflexivity). cbn [repeat app eqv]. split; [now left|].
  apply eqv_refl. now rewrite !repeat_length.
Qed.
Lemma floor_max cats : (1 <= list_max cats)%nat -> list_max (map (Nat.max 1) cats) = list_max cats.
Proof.
  intro H. apply Nat.le_antisymm; apply list_max_le; apply Forall_forall; intros K HK.
  - apply in_map_iff in HK as (K0 & <- & HI). pose proof (list_max_bound cats K0 HI). lia.
  - pose proof (list_max_bound (map (Nat.max 1) cats) (Nat.max 1 K) ltac:(now apply in_map)). lia.
Qed.
Lemma floor_free cats M : (1 <= M)%nat -> free_bias (map (Nat.max 1) cats) M = free_bias cats M.
Proof. intro HM. unfold free_bias. rewrite map_length. symmetry. apply eqv_free. now apply eqv_floor. Qed.
Lemma floor_pred cats : list_sum (map pred (map (Nat.max 1) cats)) = list_sum (map pred cats).
Proof. f_equal. rewrite map_map. apply map_ext. intros [|K]; lia. Qed.
Lemma floor_positive cats : Forall (fun K => (1 <= K)%nat) (map (Nat.max 1) cats).
Proof. apply Forall_forall. intros K HK. apply in_map_iff in HK as (K0 & <- & _). lia. Qed.

Lemma run_floor bu starts w b b' thetas : map (fun K => slice_start K (bu_max bu)) (bu_cats bu) = starts -> bu_max bu = list_max starts -> (1 <= list_max starts)%nat ->
  assign (free_bias starts (list_max starts)) b = Ok (full_bias (free_bias starts (list_max starts)) b') ->
  let m := {| p_cats := map (Nat.max 1) starts; p_lv := bu_lv bu; p_free := bu_rel bu; p_w := w; p_b := b' |} in
  gpc_run bu w b thetas = Ok (gpc_forward m thetas) /\ grm_run bu w b thetas = Ok (grm_forward m thetas).
Proof.
  intros Hs HM H1 HA m. assert (HL : length (bu_cats bu) = length starts) by (rewrite <- Hs; now rewrite map_length).
  assert (EM : p_max m = list_max starts) by (unfold p_max; cbn [m p_cats]; now apply floor_max). assert (EI : p_items m = length starts) by (unfold p_items; cbn [m p_cats]; apply map_length).
  unfold gpc_run, grm_run, bu_free, bu_missing, gpc_forward, grm_forward. rewrite Hs, HM, HA, EM, EI, HL. cbn [rmap m p_cats p_free p_lv p_w p_b]. rewrite floor_free by exact H1. split; f_equal; apply map_ext; intro t; cbv zeta; apply eqv_set; now apply eqv_floor.
Qed.
Lemma zeros cats : (list_sum (map pred cats) + length cats = list_sum cats + count_occ Nat.eq_dec cats 0)%nat.
Proof.
  unfold list_sum. induction cats as [|K cats IH]; [reflexivity|]. cbn [map fold_right length]. destruct (Nat.eq_dec K 0) as [->|H].
  - rewrite count_occ_cons_eq by reflexivity. lia.
  - rewrite count_occ_cons_neq by exact H. lia.
Qed.

(** ** The categories with items of which no cell was observed *)
Definition ints (d : mat) (starts : list nat) (l : list Z) : Prop :=
  length starts = m_cols d /\ length l = m_cols d /\
  forall c, (c < m_cols d)%nat -> (one_more d c (nth c starts O) /\ nth c l 0%Z = Z.of_nat (nth c starts O)) \/
    ((forall r z, at_ (m_rows d) r c <> Some (Some z)) /\ nth c starts O = O /\ nth c l 0%Z = (- 2 ^ 31)%Z).
Lemma data_ints d : proper d -> exists starts l, ints d starts l /\ categories_argument None (Some d) = Ok l.
Proof.
  intros (HR & Hne & Hc0 & HC).
  destruct (choose_list (fun c K => one_more d c K \/ ((forall r z, at_ (m_rows d) r c <> Some (Some z)) /\ K = O)) (m_cols d)) as (starts & HL & HS).
  { intros c Hc. destruct (observed (col_of c (m_rows d))) as [|z o] eqn:E.
    - exists O. right. split; [|reflexivity]. intros r z H. pose proof (proj2 (at_observed d c z HR Hc) (ex_intro _ r H)) as G. now rewrite E in G.
    - destruct (proj1 (at_observed d c z HR Hc)) as (r & Hr); [rewrite E; now left|]. destruct (largest d c HR) as (K & HK); [exists r, z; split; [exact Hr|exact (HC r c z Hr)]|]. exists K. now left. }
  exists starts, (map int_of (map (fun i => option_map (fun m => (m + 1)%Z) (max_list (observed (col_of i (m_rows d))))) (seq 0 (m_cols d)))).
  split; [|cbn [categories_argument]; now rewrite infer_ok by exact Hne].
  split; [exact HL|]. split; [now rewrite !map_length, seq_length|]. intros c Hc.
  rewrite map_map, nth_map_seq by exact Hc. destruct (HS c Hc) as [HO|[HN H0]].
  - left. split; [exact HO|]. destruct HO as [HU HE]. now rewrite (category_of d c (Z.of_nat (nth c starts O)) HR Hc) by (auto; lia).
  - right. split; [exact HN|]. split; [exact H0|]. destruct (max_list _) as [x|] eqn:E; [|reflexivity]. exfalso. pose proof (max_list_spec (observed (col_of c (m_rows d)))) as HM. rewrite E in HM. destruct HM as [HI _].
    apply (at_observed d c x HR Hc) in HI as (r & Hr). exact (HN r x Hr).
Qed.
Lemma ints_starts d starts l M : ints d starts l -> (Z.of_nat M <= 2 ^ 31)%Z -> map (fun K => slice_start K M) l = starts.
Proof.
  intros (HL & HL' & H) HM. apply nth_error_ext. intro c. rewrite nth_error_map. destruct (Nat.lt_ge_cases c (m_cols d)) as [Hc|Hc].
  - rewrite (nth_error_nth_lt l c 0%Z), (nth_error_nth_lt starts c O) by lia. cbn [option_map]. f_equal. destruct (H c Hc) as [(_ & ->)|(_ & -> & ->)]; [apply slice_start_nat|].
    unfold slice_start. destruct (Z.ltb_spec (- 2 ^ 31) 0); [|lia]. lia.
  - rewrite (proj2 (nth_error_None l c)), (proj2 (nth_error_None starts c)) by lia. reflexivity.
Qed.
Lemma ints_max d starts l c : ints d starts l -> (c < m_cols d)%nat -> answered d c -> py_max l = Ok (Z.of_nat (list_max starts)) /\ (1 <= list_max starts)%nat.
Proof.
  intros (HL & HL' & H) Hc (r & z & Hr & Hz).
  assert (HP : (1 <= nth c starts O)%nat). { destruct (H c Hc) as [([HU _] & _)|(HN & _)]; [pose proof (HU r z Hr); lia|destruct (HN r z Hr)]. }
  pose proof (list_max_bound starts (nth c starts O) ltac:(apply nth_In; lia)) as HB. split; [|lia].
  unfold py_max. pose proof (max_list_spec l) as HM. destruct (max_list l) as [m|]; [|subst l; cbn in HL'; lia]. destruct HM as [HI HM]. f_equal. apply Z.le_antisymm.
  - apply (In_nth _ _ 0%Z) in HI as (i & Hi & <-). destruct (H i ltac:(lia)) as [(_ & ->)|(_ & _ & ->)]; [|lia]. apply inj_le. apply list_max_bound. apply nth_In. lia.
  - rewrite <- (Z2Nat.id m). 2:{ pose proof (HM (nth c l 0%Z) ltac:(apply nth_In; lia)) as G. destruct (H c Hc) as [(_ & E)|(HN & _)]; [lia|destruct (HN r z Hr)]. }
    apply inj_le. apply list_max_le. apply Forall_forall. intros K HK. apply (In_nth _ _ O) in HK as (i & Hi & <-). destruct (H i ltac:(lia)) as [(_ & E)|(_ & -> & _)]; [|lia].
    pose proof (HM (nth i l 0%Z) ltac:(apply nth_In; lia)). lia.
Qed.
