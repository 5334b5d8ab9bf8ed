(** Histograms of two latent variables. *)
From Coq Require Import Permutation.
From Verif Require Import Base BaseFacts RBase RFacts M_Logit M_Est M_Hist P_Est3 S_Hist.
Import List.
Local Open Scope R_scope.

Lemma insideP bins lo w a x : inside bins lo w a x = true <-> lo + INR a * w <= x /\ (x < lo + INR (S a) * w \/ S a = bins /\ x = lo + INR bins * w).
Proof.
  unfold inside. rewrite andb_true_iff, orb_true_iff, andb_true_iff, Nat.eqb_eq. destruct (Rle_dec (lo + INR a * w) x), (Rlt_dec x (lo + INR (S a) * w)), (Req_EM_T x (lo + INR bins * w)); intuition (try discriminate; try lra).
Qed.
Lemma edge_le lo w j k : 0 < w -> (j <= k)%nat -> lo + INR j * w <= lo + INR k * w.
Proof. intros Hw H. apply le_INR in H. nra. Qed.
Lemma edge_lt lo w j k : 0 < w -> (j < k)%nat -> lo + INR j * w < lo + INR k * w.
Proof. intros Hw H. apply lt_INR in H. nra. Qed.
Lemma inside_exists bins lo w x : 0 < w -> (0 < bins)%nat -> lo <= x <= lo + INR bins * w -> exists a, (a < bins)%nat /\ inside bins lo w a x = true.
Proof.
  intros Hw Hb [H1 H2]. destruct (Req_dec x (lo + INR bins * w)) as [E|N].
  - exists (bins - 1)%nat. split; [lia|]. apply insideP. split; [|right; split; [lia|exact E]]. rewrite E. apply edge_le; [exact Hw|lia].
  - assert (L : x < lo + INR bins * w) by lra. clear H2 N. assert (G : forall n, x < lo + INR n * w -> exists a, (a < n)%nat /\ lo + INR a * w <= x < lo + INR (S a) * w).
    { induction n as [|n IH]; intro Hn; [cbn in Hn; lra|]. destruct (Rlt_le_dec x (lo + INR n * w)) as [A|A]; [destruct (IH A) as (a & Ha & B); exists a; split; [lia|exact B]|exists n; split; [lia|lra]]. }
    destruct (G bins L) as (a & Ha & B1 & B2). exists a. split; [exact Ha|]. apply insideP. auto.
Qed.
Lemma inside_unique bins lo w a a' x : 0 < w -> (a < bins)%nat -> (a' < bins)%nat -> inside bins lo w a x = true -> inside bins lo w a' x = true -> a = a'.
Proof.
  intros Hw Ha Ha' H H'. apply insideP in H as [L U]. apply insideP in H' as [L' U'].
  assert (G : forall b b', (b < b')%nat -> (b' < bins)%nat -> (x < lo + INR (S b) * w \/ S b = bins /\ x = lo + INR bins * w) -> lo + INR b' * w <= x -> False).
  { intros b b' Hb Hb' [A|[A _]] B; [|lia]. pose proof (edge_le lo w (S b) b' Hw ltac:(lia)). lra. }
  destruct (Nat.lt_trichotomy a a') as [T|[T|T]]; [exfalso; now apply (G a a')|exact T|exfalso; now apply (G a' a)].
Qed.
(** ** numpy's edges *)
Definition edge_list (bins : nat) (lo w : R) : list R := map (fun j => lo + INR j * w) (seq 0 (bins + 1)).
Lemma edges_shape xs bins : (0 < bins)%nat -> xs <> [] -> exists lo w, bin_edges xs bins = edge_list bins lo w /\ spans xs bins lo w.
Proof.
  intros Hb Hx. assert (NB : 0 < INR bins) by (apply lt_0_INR; lia). destruct (rmin_list_spec xs Hx) as [I1 L1]. destruct (rmax_list_spec xs Hx) as [I2 L2].
  set (lo := rmin_list xs) in *. set (hi := rmax_list xs) in *. exists (fst (outer_edges xs)), ((snd (outer_edges xs) - fst (outer_edges xs)) / INR bins). split.
  - unfold bin_edges, linspace, edge_list. replace (bins + 1 - 1)%nat with bins by lia. reflexivity.
  - assert (EO : outer_edges xs = if Req_EM_T lo hi then (lo - / 2, hi + / 2) else (lo, hi)) by (unfold outer_edges; destruct xs; [congruence|reflexivity]). rewrite EO. pose proof (L1 hi I2) as LH. destruct (Req_EM_T lo hi) as [E|N]; cbn [fst snd].
    + assert (EW : INR bins * ((hi + / 2 - (lo - / 2)) / INR bins) = 1) by (rewrite <- E; field; lra). split; [apply Rdiv_lt_0_compat; lra|]. rewrite EW. split; [intros x Hin; specialize (L1 x Hin); specialize (L2 x Hin); lra|]. right. split; [reflexivity|]. intros x Hin. specialize (L1 x Hin). specialize (L2 x Hin). lra.
    + assert (EW : lo + INR bins * ((hi - lo) / INR bins) = hi) by (field; lra). split; [apply Rdiv_lt_0_compat; lra|]. rewrite EW. split; [intros x Hin; specialize (L1 x Hin); specialize (L2 x Hin); lra|]. left. auto.
Qed.
Lemma count_edges (e : nat -> R) x : forall n s a, (a <= n)%nat -> (forall j, (s <= j < s + n)%nat -> (e j <= x <-> (j < s + a)%nat)) -> length (filter (fun v => if Rle_dec v x then true else false) (map e (seq s n))) = a.
Proof.
  induction n as [|n IH]; intros s a Ha H; [cbn; lia|]. cbn [seq map filter]. destruct (Rle_dec (e s) x) as [L|L].
  - apply (proj1 (H s ltac:(lia))) in L. cbn [length]. rewrite (IH (S s) (a - 1)%nat); [lia|lia|]. intros j Hj. rewrite (H j ltac:(lia)). lia.
  - assert (a = 0)%nat by (destruct a; [reflexivity|]; exfalso; apply L, (H s ltac:(lia)); lia). subst a. apply IH; [lia|]. intros j Hj. rewrite (H j ltac:(lia)). lia.
Qed.
Lemma last_edge bins lo w : last (edge_list bins lo w) 0 = lo + INR bins * w.
Proof. unfold edge_list. rewrite Nat.add_1_r, seq_S, map_app. cbn [map]. rewrite last_last. reflexivity. Qed.
Lemma bin_inside bins lo w a x : 0 < w -> (a < bins)%nat -> inside bins lo w a x = true -> bin_of (edge_list bins lo w) x = S a.
Proof.
  intros Hw Ha H. apply insideP in H as [L U]. unfold bin_of. rewrite last_edge. unfold edge_list. destruct U as [U|[Eb U]].
  - rewrite (count_edges (fun j => lo + INR j * w) x (bins + 1) 0 (S a)).
    + destruct (Req_EM_T x (lo + INR bins * w)) as [E|]; [|reflexivity]. pose proof (edge_le lo w (S a) bins Hw ltac:(lia)). lra.
    + lia.
    + intros j Hj. split; intro H.
      * destruct (Nat.lt_ge_cases j (0 + S a)) as [|G]; [assumption|]. pose proof (edge_le lo w (S a) j Hw ltac:(lia)). lra.
      * pose proof (edge_le lo w j a Hw ltac:(lia)). lra.
  - rewrite (count_edges (fun j => lo + INR j * w) x (bins + 1) 0 (bins + 1)).
    + destruct (Req_EM_T x (lo + INR bins * w)); [lia|contradiction].
    + lia.
    + intros j Hj. split; intro H; [lia|]. pose proof (edge_le lo w j bins Hw ltac:(lia)). lra.
Qed.
Lemma bin_iff bins lo w a x : 0 < w -> (a < bins)%nat -> lo <= x <= lo + INR bins * w -> (bin_of (edge_list bins lo w) x =? S a)%nat = inside bins lo w a x.
Proof.
  intros Hw Ha Hx. destruct (inside bins lo w a x) eqn:E; [rewrite (bin_inside bins lo w a x Hw Ha E); apply Nat.eqb_refl|].
  destruct (inside_exists bins lo w x Hw ltac:(lia) Hx) as (a' & Ha' & E'). rewrite (bin_inside bins lo w a' x Hw Ha' E'). apply Nat.eqb_neq. intro X. injection X as ->. congruence.
Qed.
Lemma edge_nth bins lo w j : (j <= bins)%nat -> nth j (edge_list bins lo w) 0 = lo + INR j * w.
Proof. intro H. unfold edge_list. rewrite (nth_indep _ 0 (lo + INR 0 * w)) by (rewrite map_length, seq_length; lia). rewrite (map_nth (fun j => lo + INR j * w)), seq_nth by lia. reflexivity. Qed.
Lemma width_is bins lo w a : (a < bins)%nat -> bin_width (edge_list bins lo w) a = w.
Proof. intro H. unfold bin_width. rewrite !edge_nth by lia. rewrite S_INR. ring. Qed.
Lemma centers_are bins lo w : bin_centers (edge_list bins lo w) = middles bins lo w.
Proof.
  unfold bin_centers, edge_list, middles. replace (removelast (map (fun j => lo + INR j * w) (seq 0 (bins + 1)))) with (map (fun j => lo + INR j * w) (seq 0 bins)) by (rewrite Nat.add_1_r, seq_S, map_app; cbn [map]; now rewrite removelast_last).
  replace (tl (map (fun j => lo + INR j * w) (seq 0 (bins + 1)))) with (map (fun j => lo + INR (S j) * w) (seq 0 bins)) by (rewrite Nat.add_1_r; cbn [seq map tl]; now rewrite <- seq_shift, map_map).
  generalize (seq 0 bins). induction l as [|j l IH]; [reflexivity|]. cbn [map zip_with]. rewrite IH, S_INR. f_equal. field.
Qed.
(** ** Counting *)
Lemma single_one n a0 : (a0 < n)%nat -> list_sum (map (fun a => if (a =? a0)%nat then 1 else 0)%nat (seq 0 n)) = 1%nat.
Proof.
  intro H. assert (G : forall m s, list_sum (map (fun a => if (a =? a0)%nat then 1 else 0)%nat (seq s m)) = if ((s <=? a0) && (a0 <? s + m))%nat then 1%nat else 0%nat).
  { induction m as [|m IH]; intro s; cbn [seq map list_sum fold_right]; [destruct (Nat.leb_spec s a0), (Nat.ltb_spec a0 (s + 0)); try reflexivity; lia|]. change (fold_right Nat.add 0%nat) with list_sum. rewrite IH. destruct (Nat.eqb_spec s a0), (Nat.leb_spec s a0), (Nat.leb_spec (S s) a0), (Nat.ltb_spec a0 (S s + m)), (Nat.ltb_spec a0 (s + S m)); cbn; try reflexivity; lia. }
  rewrite G. destruct (Nat.leb_spec 0 a0), (Nat.ltb_spec a0 (0 + n)); try reflexivity; lia.
Qed.
Lemma list_sum_plus {A} (f g : A -> nat) l : list_sum (map (fun x => f x + g x)%nat l) = (list_sum (map f l) + list_sum (map g l))%nat.
Proof. induction l as [|x l IH]; [reflexivity|]. cbn [map list_sum fold_right]. change (fold_right Nat.add 0%nat) with list_sum. rewrite IH. lia. Qed.
Lemma list_sum_zero {A} (f : A -> nat) l : (forall x, f x = 0%nat) -> list_sum (map f l) = 0%nat.
Proof. intro H. induction l as [|x l IH]; [reflexivity|]. cbn [map list_sum fold_right]. change (fold_right Nat.add 0%nat) with list_sum. rewrite IH, H. reflexivity. Qed.
Lemma counts_total ex ey bins scores : (forall s, In s scores -> exists a b, (a < bins)%nat /\ (b < bins)%nat /\ bin_of ex (fst s) = S a /\ bin_of ey (snd s) = S b) ->
  list_sum (map (fun a => list_sum (map (bin_count ex ey scores a) (seq 0 bins))) (seq 0 bins)) = length scores.
Proof.
  induction scores as [|s scores IH]; intro H; [apply list_sum_zero; intro a; now apply list_sum_zero|].
  destruct (H s (or_introl eq_refl)) as (a0 & b0 & Ha & Hb & Ea & Eb).
  assert (E : forall a b, bin_count ex ey (s :: scores) a b = ((if (a =? a0)%nat then if (b =? b0)%nat then 1 else 0 else 0) + bin_count ex ey scores a b)%nat).
  { intros a b. unfold bin_count. cbn [filter]. rewrite Ea, Eb. change (S a0 =? S a)%nat with (a0 =? a)%nat. change (S b0 =? S b)%nat with (b0 =? b)%nat. rewrite (Nat.eqb_sym a a0), (Nat.eqb_sym b b0). destruct (a0 =? a)%nat, (b0 =? b)%nat; reflexivity. }
  rewrite (map_ext _ (fun a => ((if (a =? a0)%nat then 1 else 0) + list_sum (map (bin_count ex ey scores a) (seq 0 bins)))%nat)).
  - rewrite list_sum_plus, single_one by exact Ha. rewrite IH; [reflexivity|]. intros s' Hs'. apply H. now right.
  - intro a. rewrite (map_ext _ _ (E a)), list_sum_plus. f_equal. destruct (a =? a0)%nat; [now apply single_one|now apply list_sum_zero].
Qed.
Lemma count_spec bins lox wx loy wy scores a b : 0 < wx -> 0 < wy -> (a < bins)%nat -> (b < bins)%nat ->
  (forall s, In s scores -> lox <= fst s <= lox + INR bins * wx) -> (forall s, In s scores -> loy <= snd s <= loy + INR bins * wy) ->
  bin_count (edge_list bins lox wx) (edge_list bins loy wy) scores a b = respondents_in bins lox wx loy wy scores a b.
Proof.
  intros Hx Hy Ha Hb RX RY. unfold bin_count, respondents_in. f_equal. apply filter_ext_in. intros s Hs. rewrite !bin_iff; auto.
Qed.
(** ** The figure *)
Definition heights (bins : nat) (lox wx loy wy : R) (scores : list (R * R)) : list (list (option R)) :=
  map (fun b => map (fun a => Some (INR (respondents_in bins lox wx loy wy scores a b) / wx / wy / INR (length scores))) (seq 0 bins)) (seq 0 bins).
Lemma plot_is scores bins : (0 < bins)%nat -> scores <> [] -> exists lox wx loy wy,
  spans (map fst scores) bins lox wx /\ spans (map snd scores) bins loy wy /\
  two_variables_plot scores (Some bins) = Ok {| c_z := heights bins lox wx loy wy scores; c_x := middles bins lox wx; c_y := middles bins loy wy |}.
Proof.
  intros Hb Hs. destruct (edges_shape (map fst scores) bins Hb ltac:(destruct scores; [congruence|discriminate])) as (lox & wx & EX & SX). destruct (edges_shape (map snd scores) bins Hb ltac:(destruct scores; [congruence|discriminate])) as (loy & wy & EY & SY).
  exists lox, wx, loy, wy. split; [exact SX|]. split; [exact SY|]. unfold two_variables_plot. cbn [bind]. unfold histogram2d. destruct (Nat.eqb_spec bins 0); [lia|]. rewrite EX, EY. cbn [bind]. rewrite !centers_are. f_equal. f_equal.
  destruct SX as (WX & RX & _), SY as (WY & RY & _).
  assert (RX' : forall s, In s scores -> lox <= fst s <= lox + INR bins * wx) by (intros s Hin; apply RX, in_map, Hin). assert (RY' : forall s, In s scores -> loy <= snd s <= loy + INR bins * wy) by (intros s Hin; apply RY, in_map, Hin).
  rewrite counts_total.
  2:{ intros s Hin. destruct (inside_exists bins lox wx (fst s) WX Hb (RX' s Hin)) as (a & Ha & Ia). destruct (inside_exists bins loy wy (snd s) WY Hb (RY' s Hin)) as (b & Hb' & Ib). exists a, b. split; [exact Ha|]. split; [exact Hb'|]. split; now apply bin_inside. }
  destruct (Nat.eqb_spec (length scores) 0) as [Z|_]; [destruct scores; [congruence|discriminate]|].
  unfold turned, heights. apply map_ext_in. intros b Hb'. apply in_seq in Hb'. rewrite map_map. apply map_ext_in. intros a Ha. apply in_seq in Ha.
  rewrite (nth_indep _ None (Some (INR (bin_count (edge_list bins lox wx) (edge_list bins loy wy) scores a 0) / bin_width (edge_list bins lox wx) a / bin_width (edge_list bins loy wy) 0 / INR (length scores)))) by (rewrite map_length, seq_length; lia).
  rewrite (map_nth (fun b => Some (INR (bin_count (edge_list bins lox wx) (edge_list bins loy wy) scores a b) / bin_width (edge_list bins lox wx) a / bin_width (edge_list bins loy wy) b / INR (length scores)))), seq_nth by lia. cbn [Nat.add].
  rewrite !width_is, count_spec by (auto; lia). reflexivity.
Qed.
Lemma heights_at bins lox wx loy wy scores a b cx cy : (a < bins)%nat -> (b < bins)%nat ->
  height {| c_z := heights bins lox wx loy wy scores; c_x := cx; c_y := cy |} a b = Some (INR (respondents_in bins lox wx loy wy scores a b) / wx / wy / INR (length scores)).
Proof.
  intros Ha Hb. unfold height, heights. cbn [c_z]. set (F := fun b => map (fun a => Some (INR (respondents_in bins lox wx loy wy scores a b) / wx / wy / INR (length scores))) (seq 0 bins)).
  rewrite (nth_indep _ [] (F O)) by (rewrite map_length, seq_length; lia). rewrite (map_nth F), seq_nth by lia. cbn [Nat.add]. unfold F. set (G := fun a => Some (INR (respondents_in bins lox wx loy wy scores a b) / wx / wy / INR (length scores))).
  rewrite (nth_indep _ None (G O)) by (rewrite map_length, seq_length; lia). rewrite (map_nth G), seq_nth by lia. reflexivity.
Qed.
(** The range is determined by the values. *)
Lemma spans_unique xs bins lo w lo' w' : (0 < bins)%nat -> xs <> [] -> spans xs bins lo w -> spans xs bins lo' w' -> lo = lo' /\ w = w'.
Proof.
  intros Hb Hx (W & RG & D) (W' & RG' & D'). assert (NB : 0 < INR bins) by (apply lt_0_INR; lia). assert (PW : 0 < INR bins * w) by nra. assert (PW' : 0 < INR bins * w') by nra.
  assert (Q : lo = lo' /\ INR bins * w = INR bins * w').
  { destruct D as [[D1 D2]|[D1 D2]], D' as [[D1' D2']|[D1' D2']].
    - pose proof (RG' lo D1). pose proof (RG lo' D1'). pose proof (RG' _ D2). pose proof (RG _ D2'). split; lra.
    - pose proof (D2' lo D1). pose proof (D2' _ D2). lra.
    - pose proof (D2 lo' D1'). pose proof (D2 _ D2'). lra.
    - destruct xs as [|x xs]; [congruence|]. pose proof (D2 x (or_introl eq_refl)). pose proof (D2' x (or_introl eq_refl)). split; lra. }
  destruct Q as [Q1 Q2]. split; [exact Q1|]. apply Rmult_eq_reg_l in Q2; [exact Q2|lra].
Qed.
Lemma spans_same xs xs' bins lo w : (forall x, In x xs <-> In x xs') -> spans xs bins lo w -> spans xs' bins lo w.
Proof.
  intros H (W & RG & D). split; [exact W|]. split; [intros x Hx; apply RG, H, Hx|]. destruct D as [[D1 D2]|[D1 D2]]; [left; split; now apply H|right; split; [exact D1|intros x Hx; apply D2, H, Hx]].
Qed.
Lemma filter_perm {A} (f : A -> bool) l l' : Permutation l l' -> length (filter f l) = length (filter f l').
Proof. induction 1 as [|x l l' _ IH|x y l|l l' l'' _ IH1 _ IH2]; cbn [filter]; [reflexivity|destruct (f x); cbn; lia|destruct (f x), (f y); reflexivity|lia]. Qed.
Lemma sum_all bins lox wx loy wy scores : (0 < bins)%nat -> scores <> [] -> spans (map fst scores) bins lox wx -> spans (map snd scores) bins loy wy ->
  sumn bins (fun a => sumn bins (fun b => INR (respondents_in bins lox wx loy wy scores a b))) = INR (length scores).
Proof.
  intros Hb Hs (WX & RX & _) (WY & RY & _). assert (RX' : forall s, In s scores -> lox <= fst s <= lox + INR bins * wx) by (intros s Hin; apply RX, in_map, Hin). assert (RY' : forall s, In s scores -> loy <= snd s <= loy + INR bins * wy) by (intros s Hin; apply RY, in_map, Hin).
  rewrite <- (counts_total (edge_list bins lox wx) (edge_list bins loy wy) bins scores).
  2:{ intros s Hin. destruct (inside_exists bins lox wx (fst s) WX Hb (RX' s Hin)) as (a & Ha & Ia). destruct (inside_exists bins loy wy (snd s) WY Hb (RY' s Hin)) as (b & Hb' & Ib). exists a, b. split; [exact Ha|]. split; [exact Hb'|]. split; now apply bin_inside. }
  assert (G : forall (f : nat -> nat) l, INR (list_sum (map f l)) = rsum (map (fun a => INR (f a)) l)) by (intros f l; induction l as [|x l IH]; [reflexivity|]; cbn [map list_sum fold_right rsum]; change (fold_right Nat.add 0%nat) with list_sum; now rewrite plus_INR, IH).
  rewrite G, rsum_map_seq. apply sumn_ext. intros a Ha. rewrite G, rsum_map_seq. apply sumn_ext. intros b Hb'. now rewrite count_spec.
Qed.
