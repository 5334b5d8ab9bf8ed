(** Ranks of exchangeable draws. *)
From Verif Require Import Base BaseFacts RBase RFacts M_Data M_Logit M_Lik M_Est M_Stat M_Eval M_Pop M_Pval P_True1 P_Cons1 P_Fit S_Stat S_Lik S_Est S_Eval S_True S_Rao S_Fit S_Pval.
Import List.
Local Open Scope R_scope.

(** ** Independent draws from one law *)
Section law.
  Context {A : Type} (space : list A) (w : A -> R) (Hw : forall a, In a space -> 0 <= w a) (H1 : over space w = 1).
  Let mean (f : A -> R) : R := over space (fun a => w a * f a).
  Lemma mean_le f g : (forall a, In a space -> f a <= g a) -> mean f <= mean g.
  Proof. intro H. apply over_le. intros a Ha. apply Rmult_le_compat_l; auto. Qed.
  Lemma mean_plus f g : mean (fun a => f a + g a) = mean f + mean g.
  Proof. unfold mean. rewrite <- over_plus. apply over_ext. intros; ring. Qed.
  Lemma mean_const c : mean (fun _ => c) = c.
  Proof. unfold mean. rewrite (over_ext _ _ (fun a => c * w a)) by (intros; ring). rewrite over_scal, H1. ring. Qed.
  Lemma mean_scal c f : mean (fun a => c * f a) = c * mean f.
  Proof. unfold mean. rewrite <- over_scal. apply over_ext. intros; ring. Qed.
  Lemma mean_ext f g : (forall a, In a space -> f a = g a) -> mean f = mean g.
  Proof. intro H. apply over_ext. intros a Ha. now rewrite H. Qed.
  Lemma mean_swap (f : A -> A -> R) : mean (fun a => mean (f a)) = mean (fun b => mean (fun a => f a b)).
  Proof.
    assert (S : forall l l', over l (fun a => w a * over l' (fun b => w b * f a b)) = over l' (fun b => w b * over l (fun a => w a * f a b))).
    { induction l as [|x l IH]; intro l'; [unfold over at 1; cbn [map rsum]; symmetry; rewrite (over_ext _ _ (fun b => 0 * w b)) by (intros; unfold over; cbn [map rsum]; ring); rewrite over_scal; ring|].
      assert (C : forall g, over (x :: l) g = g x + over l g) by reflexivity. rewrite C, IH, <- over_scal, <- over_plus. apply over_ext. intros b _. rewrite C. ring. }
    apply S.
  Qed.

  Definition drawn (n : nat) (l : list A) : Prop := length l = n /\ forall a, In a l -> In a space.
  Lemma drawn_cons n a l : In a space -> drawn n l -> drawn (S n) (a :: l).
  Proof. intros Ha [L H]. split; [cbn; lia|]. intros b [<-|Hb]; auto. Qed.
  Lemma draws_le n : forall f g, (forall l, drawn n l -> f l <= g l) -> draws mean n f <= draws mean n g.
  Proof.
    induction n as [|n IH]; intros f g H; cbn [draws]; [apply H; split; [reflexivity|intros a []]|]. apply mean_le. intros a Ha. apply IH. intros l Hl. apply H. now apply drawn_cons.
  Qed.
  Lemma draws_ext n f g : (forall l, drawn n l -> f l = g l) -> draws mean n f = draws mean n g.
  Proof. intro H. apply Rle_antisym; apply draws_le; intros l Hl; rewrite (H l Hl); lra. Qed.
  Lemma draws_plus n : forall f g, draws mean n (fun l => f l + g l) = draws mean n f + draws mean n g.
  Proof. induction n as [|n IH]; intros f g; cbn [draws]; [reflexivity|]. rewrite <- mean_plus. apply mean_ext. intros a _. apply IH. Qed.
  Lemma draws_const n c : draws mean n (fun _ => c) = c.
  Proof. induction n as [|n IH]; cbn [draws]; [reflexivity|]. rewrite (mean_ext _ (fun _ => c)) by (intros; exact IH). apply mean_const. Qed.
  Lemma draws_scal n c : forall f, draws mean n (fun l => c * f l) = c * draws mean n f.
  Proof. induction n as [|n IH]; intro f; cbn [draws]; [reflexivity|]. rewrite <- mean_scal. apply mean_ext. intros a _. apply IH. Qed.
  Lemma draws_sum n k (f : nat -> list A -> R) : draws mean n (fun l => sumn k (fun i => f i l)) = sumn k (fun i => draws mean n (f i)).
  Proof. induction k as [|k IH]; cbn [sumn]; [apply draws_const|]. now rewrite draws_plus, IH. Qed.

  (** The draw at position [i] first. *)
  Definition pulled (i : nat) (l : list A) : list A := match nth_error l i with Some x => x :: firstn i l ++ skipn (S i) l | None => l end.
  Lemma pulled_zero l : pulled 0 l = l.
  Proof. destruct l; reflexivity. Qed.
  Lemma pulled_next i a x r l : pulled i l = x :: r -> (i < length l)%nat -> pulled (S i) (a :: l) = x :: a :: r.
  Proof.
    unfold pulled. cbn [nth_error]. intros E Hi. destruct (nth_error l i) as [y|] eqn:Ey; [|apply nth_error_None in Ey; lia]. injection E as -> <-. reflexivity.
  Qed.
  Lemma draws_pull : forall i n f, (i <= n)%nat -> draws mean (S n) (fun l => f (pulled i l)) = draws mean (S n) f.
  Proof.
    induction i as [|i IH]; intros n f Hi; [apply draws_ext; intros l _; now rewrite pulled_zero|]. destruct n as [|n]; [lia|].
    change (draws mean (S (S n)) (fun l => f (pulled (S i) l))) with (mean (fun a => draws mean (S n) (fun l => f (pulled (S i) (a :: l))))).
    set (g := fun a l => match l with x :: r => f (x :: a :: r) | [] => f [] end).
    rewrite (mean_ext _ (fun a => draws mean (S n) (fun l => g a (pulled i l)))).
    2:{ intros a _. apply draws_ext. intros l [L _]. destruct (pulled i l) as [|x r] eqn:E; [unfold pulled in E; destruct (nth_error l i) eqn:Ey; [discriminate|apply nth_error_None in Ey; lia]|].
        rewrite (pulled_next i a x r l E) by lia. reflexivity. }
    rewrite (mean_ext _ (fun a => mean (fun x => draws mean n (fun r => f (x :: a :: r))))) by (intros a _; rewrite (IH n (g a)) by lia; reflexivity).
    rewrite mean_swap. reflexivity.
  Qed.
  (** The average number of draws that would do as the first. *)
  Lemma exchange n f : INR (S n) * draws mean (S n) f = draws mean (S n) (fun l => sumn (S n) (fun i => f (pulled i l))).
  Proof.
    rewrite (draws_sum (S n) (S n) (fun i l => f (pulled i l))). rewrite (sumn_ext _ _ (fun _ => draws mean (S n) f)); [symmetry; apply sumn_const|].
    intros i Hi. apply draws_pull. lia.
  Qed.
  Lemma rank_above n f c : (forall l, drawn (S n) l -> sumn (S n) (fun i => f (pulled i l)) <= c) -> draws mean (S n) f <= c / INR (S n).
  Proof.
    intro H. assert (P : 0 < INR (S n)) by (apply lt_0_INR; lia). apply (Rmult_le_reg_l (INR (S n))); [exact P|]. rewrite exchange. replace (INR (S n) * (c / INR (S n))) with c by (field; lra).
    rewrite <- (draws_const (S n) c). apply draws_le. exact H.
  Qed.
  Lemma rank_below n f c : (forall l, drawn (S n) l -> c <= sumn (S n) (fun i => f (pulled i l))) -> c / INR (S n) <= draws mean (S n) f.
  Proof.
    intro H. assert (P : 0 < INR (S n)) by (apply lt_0_INR; lia). apply (Rmult_le_reg_l (INR (S n))); [exact P|]. rewrite exchange. replace (INR (S n) * (c / INR (S n))) with c by (field; lra).
    rewrite <- (draws_const (S n) c). apply draws_le. exact H.
  Qed.
End law.

(** ** Ranks in a list *)
Lemma sumn_count n (b : nat -> bool) : sumn n (fun i => if b i then 1 else 0) = INR (length (filter b (seq 0 n))).
Proof.
  induction n as [|n IH]; [reflexivity|]. rewrite seq_S, filter_app, app_length, plus_INR, <- IH. cbn [sumn filter Nat.add]. destruct (b n); reflexivity.
Qed.
Lemma filter_smaller {B} (f g : B -> bool) l : (forall x, In x l -> f x = true -> g x = true) ->
  (length (filter f l) <= length (filter g l))%nat /\ ((exists x, In x l /\ g x = true /\ f x = false) -> (length (filter f l) < length (filter g l))%nat).
Proof.
  induction l as [|y l IH]; intro H; [split; [cbn; lia|intros (x & [] & _)]|]. destruct IH as [I1 I2]; [intros; apply H; [now right|assumption]|].
  pose proof (H y (or_introl eq_refl)) as Hy. cbn [filter]. split.
  - destruct (f y), (g y); cbn [length]; try lia; specialize (Hy eq_refl); discriminate.
  - intros (x & [->|Hx] & G & F); [rewrite G, F in *; cbn [length]; lia|]. assert (length (filter f l) < length (filter g l))%nat by (apply I2; now exists x). destruct (f y), (g y); cbn [length]; try lia; specialize (Hy eq_refl); discriminate.
Qed.
Lemma pulled_rest {A} (b : A -> bool) (l : list A) i x : nth_error l i = Some x -> b x = false -> length (filter b (firstn i l ++ skipn (S i) l)) = length (filter b l).
Proof.
  intros E Hx. assert (L : l = firstn i l ++ x :: skipn (S i) l).
  { revert l E. induction i as [|i IH]; intros [|y l] E; cbn [nth_error] in E; try discriminate; [injection E as ->; reflexivity|]. cbn [firstn skipn app]. f_equal. now apply IH. }
  rewrite L at 3. rewrite !filter_app. cbn [filter]. rewrite Hx. reflexivity.
Qed.
Lemma pulled_other {A} (l : list A) i j y : nth_error l j = Some y -> i <> j -> In y (firstn i l ++ skipn (S i) l).
Proof.
  revert i j. induction l as [|x l IH]; intros [|i] [|j] E D; cbn [nth_error] in E; try discriminate; [lia| | |].
  - cbn [firstn app]. now apply nth_error_In in E.
  - cbn [firstn skipn app]. left. congruence.
  - cbn [firstn app]. right. apply (IH i j); [exact E|lia].
Qed.

Section order.
  Context {A : Type} (lt : A -> A -> bool) (Hirr : forall a, lt a a = false) (Htr : forall a b c, lt a b = true -> lt b c = true -> lt a c = true).
  Definition extreme (k : nat) (l : list A) : bool :=
    match l with a :: r => ((length (filter (lt a) r) <=? k)%nat && forallb (fun s => lt s a || lt a s) r)%bool | [] => false end.
  (** At most k + 1 of the entries have k or fewer above them, if they are all different. *)
  Lemma extremes k l : (length (filter (fun i => extreme k (pulled i l)) (seq 0 (length l))) <= S k)%nat.
  Proof.
    set (I := filter (fun i => extreme k (pulled i l)) (seq 0 (length l))).
    set (rank := fun i => match nth_error l i with Some a => length (filter (lt a) l) | None => O end).
    assert (HI : forall i, In i I -> exists a, nth_error l i = Some a /\ (rank i <= k)%nat /\ forall j b, nth_error l j = Some b -> i <> j -> lt b a = true \/ lt a b = true).
    { intros i Hi. apply filter_In in Hi as [Hi HE]. apply in_seq in Hi. destruct (nth_error l i) as [a|] eqn:Ea; [|apply nth_error_None in Ea; lia]. exists a. split; [reflexivity|].
      unfold pulled in HE. rewrite Ea in HE. cbn [extreme] in HE. apply andb_true_iff in HE as [K C]. apply Nat.leb_le in K. rewrite (pulled_rest (lt a) l i a Ea (Hirr a)) in K. unfold rank. rewrite Ea. split; [exact K|].
      intros j b Eb D. rewrite forallb_forall in C. specialize (C b (pulled_other l i j b Eb D)). now apply orb_true_iff in C. }
    assert (Less : forall a b, In b l -> lt a b = true -> (length (filter (lt b) l) < length (filter (lt a) l))%nat).
    { intros a b Hb H. apply filter_smaller; [intros x _ Hx; now apply (Htr a b x)|]. exists b. auto. }
    assert (ND : NoDup (map rank I)).
    { assert (NI : NoDup I) by (apply NoDup_filter, seq_NoDup). clearbody I. induction I as [|i I' IH]; [constructor|]. inversion NI as [|? ? N1 N2]; subst. cbn [map]. constructor.
      - intro Hin. apply in_map_iff in Hin as (j & E & Hj). destruct (HI i (or_introl eq_refl)) as (a & Ea & _ & C). destruct (HI j (or_intror Hj)) as (b & Eb & _ & _).
        assert (D : i <> j) by (intros ->; contradiction). unfold rank in E. rewrite Ea, Eb in E. destruct (C j b Eb D) as [H|H].
        + pose proof (Less b a (nth_error_In _ _ Ea) H). lia.
        + pose proof (Less a b (nth_error_In _ _ Eb) H). lia.
      - apply IH; [intros; apply HI; now right|exact N2]. }
    assert (Hin : incl (map rank I) (seq 0 (S k))).
    { intros r Hr. apply in_map_iff in Hr as (i & <- & Hi). destruct (HI i Hi) as (_ & _ & K & _). apply in_seq. lia. }
    pose proof (NoDup_incl_length ND Hin) as L. now rewrite map_length, seq_length in L.
  Qed.
  (** Some entry has nothing above it. *)
  Lemma has_top l : l <> [] -> exists i a, nth_error l i = Some a /\ forall b, In b l -> lt a b = false.
  Proof.
    induction l as [|x l IH]; intro H; [congruence|]. destruct l as [|y l'].
    - exists O, x. split; [reflexivity|]. intros b [<-|[]]. apply Hirr.
    - destruct IH as (i & a & E & T); [discriminate|]. destruct (lt a x) eqn:X.
      + exists O, x. split; [reflexivity|]. intros b [<-|Hb]; [apply Hirr|]. destruct (lt x b) eqn:B; [|reflexivity]. rewrite <- (T b Hb). symmetry. now apply (Htr a x b).
      + exists (S i), a. split; [exact E|]. intros b [<-|Hb]; auto.
  Qed.
  Lemma tops l : l <> [] -> (1 <= length (filter (fun i => match pulled i l with a :: r => (length (filter (lt a) r) =? 0)%nat | [] => false end) (seq 0 (length l))))%nat.
  Proof.
    intro H. destruct (has_top l H) as (i & a & E & T).
    match goal with |- (1 <= length ?L)%nat => assert (In i L) as Hin; [|destruct L; [destruct Hin|cbn; lia]] end.
    apply filter_In. split; [apply in_seq; split; [lia|apply nth_error_Some; congruence]|]. unfold pulled. rewrite E. apply Nat.eqb_eq. rewrite (pulled_rest (lt a) l i a E (Hirr a)).
    assert (Z : forall m, (forall b, In b m -> lt a b = false) -> length (filter (lt a) m) = O) by (induction m as [|b m IH]; intro Hm; [reflexivity|]; cbn [filter]; rewrite (Hm b (or_introl eq_refl)); apply IH; intros; apply Hm; now right). now apply Z.
  Qed.
End order.

(** ** Order of floats *)
Lemma below_irr a : below_nan a a = false.
Proof. destruct a as [[x| |]|]; cbn; try reflexivity. destruct (Rle_dec x x); [reflexivity|lra]. Qed.
Lemma below_tr a b c : below_nan a b = true -> below_nan b c = true -> below_nan a c = true.
Proof.
  destruct a as [[x| |]|], b as [[y| |]|], c as [[z| |]|]; cbn; try discriminate; try reflexivity. intros H K.
  destruct (Rle_dec y x); [discriminate|]. destruct (Rle_dec z y); [discriminate|]. destruct (Rle_dec z x); [lra|reflexivity].
Qed.
Lemma at_least_below a b : (below_nan a b || below_nan b a = true)%bool -> at_least_nan a b = below_nan b a.
Proof.
  destruct a as [[x| |]|], b as [[y| |]|]; cbn; try discriminate; try reflexivity.
  destruct (Rle_dec y x), (Rle_dec x y); cbn; try discriminate; try reflexivity. lra.
Qed.
