(** Monotone likelihood ratios: stochastic order and association. *)
From Verif Require Import Base BaseFacts RBase RFacts M_Data M_Logit M_Lik M_Est P_Logit P_Logit2 P_Est1 P_Est2 P_Opt3 P_True1 P_Cons1 P_Pred P_Suff1 P_Suff2 S_Logit S_Lik S_Est S_True S_Rao S_Suff S_Abler.
Import List.
Local Open Scope R_scope.

(** ** One item *)
Lemma chebyshev_identity {A} (l : list A) (w a b : A -> R) :
  over l (fun i => over l (fun j => w i * w j * ((a i - a j) * (b i - b j)))) = 2 * (over l w * over l (fun i => w i * (a i * b i)) - over l (fun i => w i * a i) * over l (fun i => w i * b i)).
Proof.
  rewrite (over_ext l _ (fun i => w i * (a i * b i) * over l w + (w i * over l (fun j => w j * (a j * b j)) - (w i * a i * over l (fun j => w j * b j) + w i * b i * over l (fun j => w j * a j))))).
  - rewrite over_plus, over_minus, over_plus. rewrite (over_ext l (fun x => w x * (a x * b x) * over l w) (fun x => over l w * (w x * (a x * b x)))) by (intros; ring).
    rewrite (over_ext l (fun x => w x * over l (fun j => w j * (a j * b j))) (fun x => over l (fun j => w j * (a j * b j)) * w x)) by (intros; ring).
    rewrite (over_ext l (fun x => w x * a x * over l (fun j => w j * b j)) (fun x => over l (fun j => w j * b j) * (w x * a x))) by (intros; ring).
    rewrite (over_ext l (fun x => w x * b x * over l (fun j => w j * a j)) (fun x => over l (fun j => w j * a j) * (w x * b x))) by (intros; ring).
    rewrite !over_scal. ring.
  - intros i _. rewrite (over_ext l _ (fun j => w i * (a i * b i) * w j + (w i * (w j * (a j * b j)) - (w i * a i * (w j * b j) + w i * b i * (w j * a j))))) by (intros; ring).
    rewrite over_plus, over_minus, over_plus, !over_scal. ring.
Qed.
(** Two quantities that move together are positively correlated. *)
Lemma chebyshev {A} (l : list A) (w a b : A -> R) : (forall x, In x l -> 0 <= w x) -> (forall x y, In x l -> In y l -> 0 <= (a x - a y) * (b x - b y)) ->
  over l (fun i => w i * a i) * over l (fun i => w i * b i) <= over l w * over l (fun i => w i * (a i * b i)) /\
  ((exists x y, In x l /\ In y l /\ 0 < w x /\ 0 < w y /\ 0 < (a x - a y) * (b x - b y)) -> over l (fun i => w i * a i) * over l (fun i => w i * b i) < over l w * over l (fun i => w i * (a i * b i))).
Proof.
  intros HW HM. pose proof (chebyshev_identity l w a b) as E.
  assert (T : forall x y, In x l -> In y l -> 0 <= w x * w y * ((a x - a y) * (b x - b y))) by (intros x y Hx Hy; apply Rmult_le_pos; [apply Rmult_le_pos; auto|auto]).
  assert (N : forall x, In x l -> 0 <= over l (fun j => w x * w j * ((a x - a j) * (b x - b j)))) by (intros x Hx; apply over_nonneg; auto).
  split.
  - assert (0 <= over l (fun i => over l (fun j => w i * w j * ((a i - a j) * (b i - b j))))) by (apply over_nonneg; exact N). lra.
  - intros (x & y & Hx & Hy & Wx & Wy & P). assert (0 < w x * w y * ((a x - a y) * (b x - b y))) by (apply Rmult_lt_0_compat; [apply Rmult_lt_0_compat|]; assumption).
    pose proof (over_term l (fun j => w x * w j * ((a x - a j) * (b x - b j))) y (fun j Hj => T x j Hx Hj) Hy). pose proof (over_term l (fun i => over l (fun j => w i * w j * ((a i - a j) * (b i - b j)))) x N Hx). cbv beta in *. lra.
Qed.
(** Raising the latent variable raises the mean of an increasing function of the answer. *)
Lemma item_gap K (u v h : nat -> R) : sumn K u = 1 -> sumn K v = 1 ->
  sumn K (fun k => sumn K (fun l => (h l - h k) * (u k * v l - u l * v k))) = 2 * (sumn K (fun k => v k * h k) - sumn K (fun k => u k * h k)).
Proof.
  intros HU HV. rewrite <- !over_seq in *. set (s := seq 0 K) in *.
  rewrite (over_ext s _ (fun k => over s (fun l => (h l - h k) * (u k * v l - u l * v k)))) by (intros k _; unfold s; now rewrite over_seq).
  rewrite (over_ext s _ (fun k => u k * over s (fun l => v l * h l) + (h k * v k * over s u - (over s (fun l => u l * h l) * v k + h k * u k * over s v)))).
  - rewrite over_plus, over_minus, over_plus, HU, HV. rewrite (over_ext s (fun x => u x * over s (fun l => v l * h l)) (fun x => over s (fun l => v l * h l) * u x)) by (intros; ring).
    rewrite !over_scal, HU, HV. rewrite (over_ext s (fun x => h x * v x * 1) (fun x => v x * h x)) by (intros; ring). rewrite (over_ext s (fun x => h x * u x * 1) (fun x => u x * h x)) by (intros; ring). ring.
  - intros k _. rewrite (over_ext s _ (fun l => u k * (v l * h l) + (h k * v k * u l - (v k * (u l * h l) + h k * u k * v l)))) by (intros; ring). rewrite over_plus, over_minus, over_plus, !over_scal. ring.
Qed.
Lemma item_dominates K q x y (h : nat -> R) : ordered_item K q -> x <= y -> (forall k k', (k <= k')%nat -> (k' < K)%nat -> h k <= h k') ->
  sumn K (fun k => q k x * h k) <= sumn K (fun k => q k y * h k) /\
  (x < y -> sumn K (fun k => q k x * h k) = sumn K (fun k => q k y * h k) -> forall k k', (k < K)%nat -> (k' < K)%nat -> h k = h k').
Proof.
  intros (HP & HS & HO) Hxy HM. destruct Hxy as [Hlt| ->]; [|split; [lra|intro; lra]].
  pose proof (item_gap K (fun k => q k x) (fun k => q k y) h (HS x) (HS y)) as G. cbv beta in G.
  assert (T : forall k l, (k < K)%nat -> (l < K)%nat -> 0 <= (h l - h k) * (q k x * q l y - q l x * q k y)).
  { intros k l Hk Hl. destruct (Nat.lt_trichotomy k l) as [L|[->|L]]; [|rewrite Rminus_diag_eq by reflexivity; lra|].
    - pose proof (HM k l ltac:(lia) Hl). pose proof (HO k l x y L Hl Hlt). apply Rmult_le_pos; lra.
    - pose proof (HM l k ltac:(lia) Hk). pose proof (HO l k x y L Hk Hlt). rewrite <- Rmult_opp_opp. apply Rmult_le_pos; lra. }
  assert (TT : 0 <= sumn K (fun k => sumn K (fun l => (h l - h k) * (q k x * q l y - q l x * q k y)))) by (apply sumn_nonneg; intros k Hk; apply sumn_nonneg; intros l Hl; auto).
  split; [lra|]. intros _ E.
  assert (Z : forall k l, (k < l)%nat -> (l < K)%nat -> h k = h l).
  { intros k l L Hl. pose proof (sumn_term_le K (fun k => sumn K (fun l => (h l - h k) * (q k x * q l y - q l x * q k y))) k ltac:(intros; apply sumn_nonneg; auto) ltac:(lia)) as B1.
    pose proof (sumn_term_le K (fun l => (h l - h k) * (q k x * q l y - q l x * q k y)) l ltac:(intros; apply T; lia) Hl) as B2. cbv beta in B1, B2.
    pose proof (HM k l ltac:(lia) Hl). pose proof (HO k l x y L Hl Hlt). assert (D : (h l - h k) * (q k x * q l y - q l x * q k y) <= 0) by lra. nra. }
  intros k k' Hk Hk'. destruct (Nat.lt_trichotomy k k') as [L|[->|L]]; [now apply Z|reflexivity|symmetry; now apply Z].
Qed.

(** ** Rows *)
Definition shift (p : list R -> nat -> nat -> R) : list R -> nat -> nat -> R := fun t i k => p t (S i) k.
Lemma answers_seen K cats seen p t f : on_answers (K :: cats) (true :: seen) p t f = sumn K (fun k => p t O k * on_answers cats seen (shift p) t (fun row => f (Some (Z.of_nat k) :: row))).
Proof.
  unfold on_answers. change (rsum (map ?g ?l)) with (over l g). cbn [possible_rows]. rewrite over_flat, over_seq. apply sumn_ext. intros k _. rewrite over_map. change (rsum (map ?g ?l)) with (over l g). rewrite <- over_scal. apply over_ext. intros row _.
  rewrite likelihood_cons, answer_of_nat. unfold shift. ring.
Qed.
Lemma answers_unseen K cats seen p t f : on_answers (K :: cats) (false :: seen) p t f = on_answers cats seen (shift p) t (fun row => f (None :: row)).
Proof.
  unfold on_answers. change (rsum (map ?g ?l)) with (over l g). cbn [possible_rows]. rewrite over_map. apply over_ext. intros row _. rewrite likelihood_cons. cbn [answer]. unfold shift. ring.
Qed.
Lemma answers_empty p t f : on_answers [] [] p t f = f []. Proof. unfold on_answers, likelihood. cbn. ring. Qed.
Lemma answers_ext cats seen p t f g : (forall row, In row (possible_rows cats seen) -> f row = g row) -> on_answers cats seen p t f = on_answers cats seen p t g.
Proof. intro H. unfold on_answers. f_equal. apply map_ext_in. intros row Hr. now rewrite H. Qed.
Lemma no_worse_cons K cats c c' row row' : all_no_worse (K :: cats) (c :: row) (c' :: row') <-> no_worse K (answer c) (answer c') /\ all_no_worse cats row row'.
Proof.
  split.
  - intro H. split; [exact (H O ltac:(cbn; lia))|]. intros i Hi. exact (H (S i) ltac:(cbn [length]; lia)).
  - intros [H0 H] [|i] Hi; [exact H0|]. cbn [length] in Hi. apply H. lia.
Qed.
Lemma no_worse_refl cats row : all_no_worse cats row row. Proof. intros i _. apply nw_same. Qed.
Lemma row_seen k K row cats seen : (k < K)%nat -> In row (possible_rows cats seen) -> In (Some (Z.of_nat k) :: row) (possible_rows (K :: cats) (true :: seen)).
Proof. intros Hk Hr. cbn [possible_rows]. apply in_flat_map. exists k. split; [apply in_seq; lia|now apply in_map]. Qed.
Lemma row_unseen K row cats seen : In row (possible_rows cats seen) -> In (None :: row) (possible_rows (K :: cats) (false :: seen)).
Proof. intro Hr. cbn [possible_rows]. now apply in_map. Qed.
Lemma row_cases K cats b seen row : In row (possible_rows (K :: cats) (b :: seen)) ->
  exists c row', row = c :: row' /\ In row' (possible_rows cats seen) /\ if b then exists k, (k < K)%nat /\ c = Some (Z.of_nat k) else c = None.
Proof.
  cbn [possible_rows]. destruct b; intro H.
  - apply in_flat_map in H as (k & Hk & H). apply in_map_iff in H as (row' & <- & H). apply in_seq in Hk. exists (Some (Z.of_nat k)), row'. repeat split; auto. exists k. split; [lia|reflexivity].
  - apply in_map_iff in H as (row' & <- & H). exists None, row'. auto.
Qed.
Lemma rises_tail K cats seen f k : (k < K)%nat -> rises (K :: cats) (true :: seen) f -> rises cats seen (fun row => f (Some (Z.of_nat k) :: row)).
Proof. intros Hk H row row' Hr Hr' HN. apply H; [now apply row_seen|now apply row_seen|]. apply no_worse_cons. split; [apply nw_same|exact HN]. Qed.
Lemma rises_unseen K cats seen f : rises (K :: cats) (false :: seen) f -> rises cats seen (fun row => f (None :: row)).
Proof. intros H row row' Hr Hr' HN. apply H; [now apply row_unseen|now apply row_unseen|]. apply no_worse_cons. split; [apply nw_same|exact HN]. Qed.
Lemma rises_head K cats seen f k k' row : (k <= k')%nat -> (k' < K)%nat -> In row (possible_rows cats seen) -> rises (K :: cats) (true :: seen) f -> f (Some (Z.of_nat k) :: row) <= f (Some (Z.of_nat k') :: row).
Proof.
  intros L Hk Hr H. apply H; [apply row_seen; [lia|exact Hr]|now apply row_seen|]. apply no_worse_cons. split; [|apply no_worse_refl]. rewrite !answer_of_nat. destruct (Nat.eq_dec k k') as [->|N]; [apply nw_same|apply nw_higher; lia].
Qed.

Definition all_ordered (cats : list nat) (p : list R -> nat -> nat -> R) : Prop :=
  forall i, (i < length cats)%nat -> (1 <= nth i cats O)%nat /\ ordered_item (nth i cats O) (fun k x => p [x] i k).
Lemma ordered_tail K cats p : all_ordered (K :: cats) p -> all_ordered cats (shift p).
Proof. intros H i Hi. exact (H (S i) ltac:(cbn [length]; lia)). Qed.
Lemma answers_total cats : forall seen p z, length seen = length cats -> all_ordered cats p -> on_answers cats seen p [z] (fun _ => 1) = 1.
Proof.
  induction cats as [|K cats IH]; intros [|b seen] p z HL HO; try discriminate; [now rewrite answers_empty|]. cbn [length] in HL. pose proof (IH seen (shift p) z ltac:(lia) (ordered_tail _ _ _ HO)) as E.
  destruct b; [rewrite answers_seen|now rewrite answers_unseen]. destruct (HO O ltac:(cbn; lia)) as [_ (_ & S1 & _)]. cbn [nth] in S1. rewrite (sumn_ext _ _ (fun k => p [z] O k)); [apply S1|]. intros k _. rewrite E. ring.
Qed.
Lemma answers_le cats : forall seen p z f g, length seen = length cats -> all_ordered cats p -> (forall row, In row (possible_rows cats seen) -> f row <= g row) -> on_answers cats seen p [z] f <= on_answers cats seen p [z] g.
Proof.
  induction cats as [|K cats IH]; intros [|b seen] p z f g HL HO H; try discriminate; [rewrite !answers_empty; apply H; now left|]. cbn [length] in HL. pose proof (ordered_tail _ _ _ HO) as HT.
  destruct b; [rewrite !answers_seen|rewrite !answers_unseen; apply IH; auto; intros row Hr; apply H; now apply row_unseen].
  apply sumn_le. intros k Hk. destruct (HO O ltac:(cbn; lia)) as [_ (P & _ & _)]. cbn [nth] in P. apply Rmult_le_compat_l; [left; now apply P|]. apply IH; auto. intros row Hr. apply H. now apply row_seen.
Qed.
Lemma answers_scal cats seen p t c f : on_answers cats seen p t (fun row => c * f row) = c * on_answers cats seen p t f.
Proof. unfold on_answers. change (rsum (map ?g ?l)) with (over l g). rewrite <- over_scal. apply over_ext. intros; ring. Qed.
Lemma answers_const cats seen p z c : length seen = length cats -> all_ordered cats p -> on_answers cats seen p [z] (fun _ => c) = c.
Proof. intros HL HO. rewrite (answers_ext _ _ _ _ _ (fun _ => c * 1)) by (intros; ring). rewrite (answers_scal _ _ _ _ c (fun _ => 1)), answers_total by assumption. ring. Qed.
Lemma rows_exist cats : forall seen p, length seen = length cats -> all_ordered cats p -> exists row, In row (possible_rows cats seen).
Proof.
  induction cats as [|K cats IH]; intros [|b seen] p HL HO; try discriminate; [exists []; now left|]. cbn [length] in HL. destruct (IH seen (shift p) ltac:(lia) (ordered_tail _ _ _ HO)) as [row Hr]. destruct (HO O ltac:(cbn; lia)) as [HK _]. cbn [nth] in HK.
  destruct b; [exists (Some (Z.of_nat 0) :: row); apply row_seen; [lia|exact Hr]|exists (None :: row); now apply row_unseen].
Qed.

(** Abler respondents have larger means of every rising score. *)
Lemma dominates cats : forall seen p f x y, length seen = length cats -> all_ordered cats p -> rises cats seen f -> x <= y ->
  on_answers cats seen p [x] f <= on_answers cats seen p [y] f /\
  (x < y -> on_answers cats seen p [x] f = on_answers cats seen p [y] f -> forall row row', In row (possible_rows cats seen) -> In row' (possible_rows cats seen) -> f row = f row').
Proof.
  induction cats as [|K cats IH]; intros [|b seen] p f x y HL HO HR Hxy; try discriminate; [rewrite !answers_empty; split; [lra|]; intros _ _ row row' [<-|[]] [<-|[]]; reflexivity|].
  cbn [length] in HL. pose proof (ordered_tail _ _ _ HO) as HT. assert (L' : length seen = length cats) by lia. destruct b.
  - rewrite !answers_seen. destruct (HO O ltac:(cbn; lia)) as [HK HI]. cbn [nth] in HK, HI. assert (P := proj1 HI).
    set (e := fun z k => on_answers cats seen (shift p) [z] (fun row => f (Some (Z.of_nat k) :: row))).
    assert (I : forall k, (k < K)%nat -> e x k <= e y k /\ (x < y -> e x k = e y k -> forall row row', In row (possible_rows cats seen) -> In row' (possible_rows cats seen) -> f (Some (Z.of_nat k) :: row) = f (Some (Z.of_nat k) :: row'))) by (intros k Hk; exact (IH seen (shift p) (fun row => f (Some (Z.of_nat k) :: row)) x y L' HT (rises_tail _ _ _ _ _ Hk HR) Hxy)).
    assert (M : forall k k', (k <= k')%nat -> (k' < K)%nat -> e y k <= e y k') by (intros k k' L Hk'; apply answers_le; auto; intros row Hr; exact (rises_head _ _ _ _ _ _ _ L Hk' Hr HR)).
    assert (A : sumn K (fun k => p [x] O k * e x k) <= sumn K (fun k => p [x] O k * e y k)) by (apply sumn_le; intros k Hk; apply Rmult_le_compat_l; [left; now apply P|now apply I]).
    destruct (item_dominates K _ x y (e y) HI Hxy M) as [B1 B2]. fold (e x) (e y). split; [cbv beta in B1; unfold e in *; lra|].
    intros Hlt E row row' Hr Hr'. specialize (B2 Hlt). cbv beta in B1, B2.
    assert (E1 : sumn K (fun k => p [x] O k * e x k) = sumn K (fun k => p [x] O k * e y k)) by (unfold e in *; lra).
    assert (E2 : sumn K (fun k => p [x] O k * e y k) = sumn K (fun k => p [y] O k * e y k)) by (unfold e in *; lra). specialize (B2 E2).
    assert (F : forall k, (k < K)%nat -> e x k = e y k).
    { intros k Hk. assert (S0 : sumn K (fun k => p [x] O k * (e y k - e x k)) = 0) by (rewrite (sumn_ext _ _ (fun k => p [x] O k * e y k - p [x] O k * e x k)) by (intros; ring); rewrite sumn_minus; lra).
      pose proof (sumn_term_le K (fun k => p [x] O k * (e y k - e x k)) k ltac:(intros j Hj; apply Rmult_le_pos; [left; now apply P|pose proof (proj1 (I j Hj)); lra]) Hk) as T. cbv beta in T. pose proof (P k x Hk). pose proof (proj1 (I k Hk)). nra. }
    assert (C : forall k r, (k < K)%nat -> In r (possible_rows cats seen) -> e y k = f (Some (Z.of_nat k) :: r)).
    { intros k r Hk Hin. unfold e. rewrite (answers_ext _ _ _ _ _ (fun _ => f (Some (Z.of_nat k) :: r))); [now apply answers_const|]. intros r' Hin'. apply (proj2 (I k Hk) Hlt (F k Hk)); assumption. }
    apply row_cases in Hr as (c & r & -> & Hr & k & Hk & ->). apply row_cases in Hr' as (c' & r' & -> & Hr' & k' & Hk' & ->). rewrite <- !C by assumption. now apply B2.
  - rewrite !answers_unseen. destruct (IH seen (shift p) (fun row => f (None :: row)) x y L' HT (rises_unseen _ _ _ _ HR) Hxy) as [I1 I2]. split; [exact I1|]. intros Hlt E row row' Hr Hr'.
    apply row_cases in Hr as (c & r & -> & Hr & ->). apply row_cases in Hr' as (c' & r' & -> & Hr' & ->). now apply I2.
Qed.
(** Two rising scores are positively correlated over the answers of one respondent. *)
Lemma harris cats : forall seen p f g z, length seen = length cats -> all_ordered cats p -> rises cats seen f -> rises cats seen g ->
  on_answers cats seen p [z] f * on_answers cats seen p [z] g <= on_answers cats seen p [z] (fun row => f row * g row).
Proof.
  induction cats as [|K cats IH]; intros [|b seen] p f g z HL HO Hf Hg; try discriminate; [rewrite !answers_empty; lra|].
  cbn [length] in HL. pose proof (ordered_tail _ _ _ HO) as HT. assert (L' : length seen = length cats) by lia. destruct b.
  - rewrite !answers_seen. destruct (HO O ltac:(cbn; lia)) as [HK (P & S1 & _)]. cbn [nth] in HK, P, S1.
    set (e := fun f k => on_answers cats seen (shift p) [z] (fun row => f (Some (Z.of_nat k) :: row))).
    assert (M : forall f, rises (K :: cats) (true :: seen) f -> forall k k', (k <= k')%nat -> (k' < K)%nat -> e f k <= e f k') by (intros h Hh k k' L Hk'; apply answers_le; auto; intros row Hr; exact (rises_head _ _ _ _ _ _ _ L Hk' Hr Hh)).
    assert (A : sumn K (fun k => p [z] O k * (e f k * e g k)) <= sumn K (fun k => p [z] O k * e (fun row => f row * g row) k)).
    { apply sumn_le. intros k Hk. apply Rmult_le_compat_l; [left; now apply P|]. unfold e. apply IH; auto; now apply rises_tail with (K := K). }
    assert (W : forall k, In k (seq 0 K) -> 0 <= p [z] O k) by (intros k Hk; apply in_seq in Hk; left; apply P; lia).
    assert (Q : forall k l, In k (seq 0 K) -> In l (seq 0 K) -> 0 <= (e f k - e f l) * (e g k - e g l)).
    { intros k l Hk Hl. apply in_seq in Hk, Hl. destruct (Nat.le_ge_cases k l) as [L|L].
      - pose proof (M f Hf k l L ltac:(lia)). pose proof (M g Hg k l L ltac:(lia)). rewrite <- Rmult_opp_opp. apply Rmult_le_pos; lra.
      - pose proof (M f Hf l k L ltac:(lia)). pose proof (M g Hg l k L ltac:(lia)). apply Rmult_le_pos; lra. }
    destruct (chebyshev (seq 0 K) (fun k => p [z] O k) (e f) (e g) W Q) as [B _]. rewrite !over_seq, (S1 z) in B. unfold e in *. lra.
  - rewrite !answers_unseen. apply (IH seen (shift p) (fun row => f (None :: row)) (fun row => g (None :: row))); auto; now apply rises_unseen with (K := K).
Qed.
(** And over the answers of a population. *)
Lemma associated cats seen p f g people : length seen = length cats -> all_ordered cats p -> rises cats seen f -> rises cats seen g -> Forall (fun x => 0 <= fst x) people ->
  let E h := in_population people (fun z => on_answers cats seen p [z] h) in
  E f * E g <= in_population people (fun _ => 1) * E (fun row => f row * g row) /\
  (varies cats seen f -> varies cats seen g -> (exists w z w' z', In (w, z) people /\ In (w', z') people /\ 0 < w /\ 0 < w' /\ z < z') ->
     E f * E g < in_population people (fun _ => 1) * E (fun row => f row * g row)).
Proof.
  intros HL HO Hf Hg HW E. unfold E, in_population. change (rsum (map ?g ?l)) with (over l g). rewrite Forall_forall in HW.
  set (a := fun x : R * R => on_answers cats seen p [snd x] f). set (b := fun x : R * R => on_answers cats seen p [snd x] g).
  assert (EW : over people (fun x => fst x * 1) = over people fst) by (apply over_ext; intros; ring). rewrite EW.
  assert (H1 : over people (fun x => fst x * (a x * b x)) <= over people (fun x => fst x * on_answers cats seen p [snd x] (fun row => f row * g row))) by (apply over_le; intros x Hx; apply Rmult_le_compat_l; [auto|now apply harris]).
  assert (HWs : 0 <= over people fst) by (apply over_nonneg; auto).
  assert (MA : forall f, rises cats seen f -> forall x y, x <= y -> on_answers cats seen p [x] f <= on_answers cats seen p [y] f) by (intros h Hh x y Hxy; now apply dominates).
  assert (Q : forall x y, In x people -> In y people -> 0 <= (a x - a y) * (b x - b y)).
  { intros [w x] [w' y] _ _. unfold a, b. cbn [snd]. destruct (Rle_lt_dec x y) as [L|L].
    - pose proof (MA f Hf x y L). pose proof (MA g Hg x y L). rewrite <- Rmult_opp_opp. apply Rmult_le_pos; lra.
    - pose proof (MA f Hf y x ltac:(lra)). pose proof (MA g Hg y x ltac:(lra)). apply Rmult_le_pos; lra. }
  destruct (chebyshev people fst a b HW Q) as [C1 C2].
  assert (H2 : over people fst * over people (fun x => fst x * (a x * b x)) <= over people fst * over people (fun x => fst x * on_answers cats seen p [snd x] (fun row => f row * g row))) by (apply Rmult_le_compat_l; assumption).
  split; [unfold a, b in *; lra|]. intros Vf Vg (w & z & w' & z' & Hx & Hy & Pw & Pw' & Hz).
  assert (ST : forall f, rises cats seen f -> varies cats seen f -> on_answers cats seen p [z] f < on_answers cats seen p [z'] f).
  { intros h Hh (row & row' & Hr & Hr' & N). destruct (dominates cats seen p h z z' HL HO Hh ltac:(lra)) as [[D|D] D']; [exact D|]. elim N. now apply D'. }
  assert (C3 : over people (fun i => fst i * a i) * over people (fun i => fst i * b i) < over people fst * over people (fun i => fst i * (a i * b i))).
  { apply C2. exists (w, z), (w', z'). repeat split; auto. unfold a, b. cbn [snd]. pose proof (ST f Hf Vf). pose proof (ST g Hg Vg). rewrite <- Rmult_opp_opp. apply Rmult_lt_0_compat; lra. }
  unfold a, b in *; lra.
Qed.
(** Rows that differ, differ in an item with two categories. *)
Lemma rows_differ cats : forall seen row row', length seen = length cats -> In row (possible_rows cats seen) -> In row' (possible_rows cats seen) -> row <> row' -> some_different cats row row'.
Proof.
  induction cats as [|K cats IH]; intros [|b seen] row row' HL Hr Hr' N; try discriminate; [destruct Hr as [<-|[]], Hr' as [<-|[]]; congruence|]. cbn [length] in HL.
  apply row_cases in Hr as (c & r & -> & Hr & Hc). apply row_cases in Hr' as (c' & r' & -> & Hr' & Hc').
  assert (T : r <> r' -> some_different (K :: cats) (c :: r) (c' :: r')).
  { intro N'. destruct (IH seen r r' ltac:(lia) Hr Hr' N') as (i & Hi & H2 & D). exists (S i). cbn [length nth]. split; [lia|]. auto. }
  destruct b; [|subst c c'; apply T; congruence]. destruct Hc as (k & Hk & ->), Hc' as (k' & Hk' & ->). destruct (Nat.eq_dec k k') as [->|Nk]; [apply T; congruence|].
  exists O. cbn [length nth]. rewrite !answer_of_nat. split; [lia|]. split; [lia|congruence].
Qed.
