(** Continuous functions of several numbers attain their maximum on boxes. *)
From Verif Require Import Base BaseFacts RBase RFacts P_Logit P_Max1.
From Coq Require Import Rtopology.
Import List.
Local Open Scope R_scope.

Definition inbox (n : nat) (B : R) (t : list R) : Prop := length t = n /\ forall d, (d < n)%nat -> Rabs (nth d t 0) <= B.
Definition near (n : nat) (e : R) (t t' : list R) : Prop := forall d, (d < n)%nat -> Rabs (nth d t 0 - nth d t' 0) < e.
(** Uniformly continuous on every box. *)
Definition ucont (n : nat) (f : list R -> R) : Prop := forall B e, 0 < e -> exists d, 0 < d /\ forall t t', inbox n B t -> inbox n B t' -> near n d t t' -> Rabs (f t - f t') < e.

Lemma ucont_tail n f x : ucont (S n) f -> ucont n (fun t => f (x :: t)).
Proof.
  intros H B e He. destruct (H (Rmax B (Rabs x)) e He) as (d & Hd & Hx). exists d. split; [exact Hd|]. intros t t' [L1 B1] [L2 B2] HN.
  pose proof (Rmax_l B (Rabs x)). pose proof (Rmax_r B (Rabs x)). apply Hx.
  - split; [cbn; lia|]. intros [|i] Hi; cbn [nth]; [lra|]. specialize (B1 i ltac:(lia)). lra.
  - split; [cbn; lia|]. intros [|i] Hi; cbn [nth]; [lra|]. specialize (B2 i ltac:(lia)). lra.
  - intros [|i] Hi; cbn [nth]; [rewrite Rminus_diag_eq, Rabs_R0 by reflexivity; exact Hd|apply HN; lia].
Qed.
Lemma box_zero n B : 0 <= B -> inbox n B (repeat 0 n).
Proof. intro HB. split; [apply repeat_length|]. intros d Hd. rewrite (nth_error_nth _ _ 0 (nth_error_repeat_lt 0 n d Hd)), Rabs_R0. exact HB. Qed.
Lemma box_maximum n : forall f B, 0 <= B -> ucont n f -> exists t, inbox n B t /\ forall t', inbox n B t' -> f t' <= f t.
Proof.
  induction n as [|n IH]; intros f B HB Hf.
  - exists []. split; [split; [reflexivity|intros; lia]|]. intros t' [L _]. destruct t'; [lra|discriminate].
  - set (E := fun x y => exists t, inbox n B t /\ y = f (x :: t)).
    assert (Eb : forall x, bound (E x)). { intro x. destruct (IH _ B HB (ucont_tail n f x Hf)) as (t & _ & Ht). exists (f (x :: t)). intros y (t' & Hb & ->). now apply Ht. }
    assert (En : forall x, exists y, E x y) by (intro x; exists (f (x :: repeat 0 n)), (repeat 0 n); split; [now apply box_zero|reflexivity]).
    set (g := fun x => proj1_sig (completeness (E x) (Eb x) (En x))). assert (Hg : forall x, is_lub (E x) (g x)) by (intro x; unfold g; destruct (completeness _ _ _) as [y Hy]; exact Hy).
    assert (G : forall B' e, 0 < e -> B <= B' -> exists d, 0 < d /\ forall x y, Rabs x <= B' -> Rabs y <= B' -> Rabs (x - y) < d -> g x <= g y + e).
    { intros B' e He HB'. destruct (Hf B' e He) as (d & Hd & Hx). exists d. split; [exact Hd|]. intros x y Bx By Hxy. apply (proj2 (Hg x)). intros z (t & [Lt Bt] & ->).
      pose proof (proj1 (Hg y) (f (y :: t)) ltac:(exists t; split; [now split|reflexivity])) as Hy.
      assert (I : forall u, Rabs u <= B' -> inbox (S n) B' (u :: t)) by (intros u Hu; split; [cbn; lia|]; intros [|i] Hi; cbn [nth]; [exact Hu|specialize (Bt i ltac:(lia)); lra]).
      pose proof (Hx (x :: t) (y :: t) (I x Bx) (I y By)) as Hn. apply Rabs_def2 in Hn; [lra|]. intros [|i] Hi; cbn [nth]; [exact Hxy|rewrite Rminus_diag_eq, Rabs_R0 by reflexivity; exact Hd]. }
    assert (Gc : continuity g).
    { intros x e He. destruct (G (Rmax B (Rabs x + 1)) (e / 2) ltac:(lra) (Rmax_l _ _)) as (d & Hd & Hx). exists (Rmin d 1). split; [apply Rmin_glb_lt; lra|]. intros y [_ Hy]. unfold dist in *. cbn [R_met Base] in *. unfold R_dist in *.
      pose proof (Rmin_l d 1). pose proof (Rmin_r d 1). pose proof (Rmax_r B (Rabs x + 1)). assert (Rabs y <= Rabs x + 1). { replace y with (x + (y - x)) by ring. eapply Rle_trans; [apply Rabs_triang|]. lra. }
      pose proof (Hx x y ltac:(lra) ltac:(lra) ltac:(rewrite Rabs_minus_sym; lra)). pose proof (Hx y x ltac:(lra) ltac:(lra) ltac:(lra)). apply Rabs_def1; lra. }
    destruct (continuity_ab_maj g (- B) B ltac:(lra) ltac:(intros; apply Gc)) as (x & Hx & Bx). destruct (IH _ B HB (ucont_tail n f x Hf)) as (t & [Lt Bt] & Ht). exists (x :: t). split.
    + split; [cbn; lia|]. intros [|i] Hi; cbn [nth]; [apply Rabs_le; lra|apply Bt; lia].
    + intros t' [L' B']. destruct t' as [|y t']; [discriminate|]. pose proof (B' 0%nat ltac:(lia)) as By. cbn [nth] in By.
      assert (f (y :: t') <= g y). { apply (proj1 (Hg y)). exists t'. split; [|reflexivity]. split; [cbn in L'; lia|]. intros i Hi. exact (B' (S i) ltac:(lia)). }
      assert (g x <= f (x :: t)) by (apply (proj2 (Hg x)); intros z (u & Hu & ->); now apply Ht).
      assert (- B <= y <= B) by (unfold Rabs in By; destruct (Rcase_abs y); lra). specialize (Hx y ltac:(lra)). lra.
Qed.

(** ** Building continuous functions *)
Lemma ucont_ext n f g : (forall t, length t = n -> f t = g t) -> ucont n f -> ucont n g.
Proof. intros E H B e He. destruct (H B e He) as (d & Hd & Hx). exists d. split; [exact Hd|]. intros t t' Ht Ht' HN. rewrite <- !E by (apply Ht || apply Ht'). now apply Hx. Qed.
Lemma ucont_const n c : ucont n (fun _ => c).
Proof. intros B e He. exists 1. split; [lra|]. intros. rewrite Rminus_diag_eq, Rabs_R0 by reflexivity. exact He. Qed.
Lemma ucont_nth n d : ucont n (fun t => nth d t 0).
Proof.
  intros B e He. exists e. split; [exact He|]. intros t t' [L _] [L' _] HN. destruct (Nat.lt_ge_cases d n) as [Hd|Hd]; [now apply HN|]. rewrite !nth_overflow by lia. rewrite Rminus_diag_eq, Rabs_R0 by reflexivity. exact He.
Qed.
Lemma ucont_plus n f g : ucont n f -> ucont n g -> ucont n (fun t => f t + g t).
Proof.
  intros Hf Hg B e He. destruct (Hf B (e / 2) ltac:(lra)) as (d1 & Hd1 & H1). destruct (Hg B (e / 2) ltac:(lra)) as (d2 & Hd2 & H2). exists (Rmin d1 d2). split; [now apply Rmin_glb_lt|]. intros t t' Ht Ht' HN.
  pose proof (Rmin_l d1 d2). pose proof (Rmin_r d1 d2). specialize (H1 t t' Ht Ht' ltac:(intros d Hd; specialize (HN d Hd); lra)). specialize (H2 t t' Ht Ht' ltac:(intros d Hd; specialize (HN d Hd); lra)).
  apply Rabs_def2 in H1. apply Rabs_def2 in H2. apply Rabs_def1; lra.
Qed.
Lemma ucont_opp n f : ucont n f -> ucont n (fun t => - f t).
Proof. intros H B e He. destruct (H B e He) as (d & Hd & Hx). exists d. split; [exact Hd|]. intros t t' Ht Ht' HN. specialize (Hx t t' Ht Ht' HN). apply Rabs_def2 in Hx. apply Rabs_def1; lra. Qed.
Lemma ucont_bounded n f B : 0 <= B -> ucont n f -> exists M, forall t, inbox n B t -> - M <= f t <= M.
Proof.
  intros HB H. destruct (box_maximum n f B HB H) as (t1 & _ & H1). destruct (box_maximum n (fun t => - f t) B HB (ucont_opp n f H)) as (t2 & _ & H2).
  exists (Rmax (f t1) (- f t2)). intros t Ht. specialize (H1 t Ht). specialize (H2 t Ht). pose proof (Rmax_l (f t1) (- f t2)). pose proof (Rmax_r (f t1) (- f t2)). lra.
Qed.
Lemma ucont_comp n f h : continuity h -> ucont n f -> ucont n (fun t => h (f t)).
Proof.
  intros Hh Hf B e He. destruct (Rle_lt_dec 0 B) as [HB|HB].
  - destruct (ucont_bounded n f B HB Hf) as [M HM]. destruct (Heine h (fun c => - M <= c <= M) (compact_P3 (- M) M) (fun x _ => Hh x) (mkposreal e He)) as [[d Hd] Hx]. cbn [pos] in Hx.
    destruct (Hf B d Hd) as (d2 & Hd2 & H2). exists d2. split; [exact Hd2|]. intros t t' Ht Ht' HN. apply Hx; [now apply HM|now apply HM|now apply H2].
  - destruct n as [|n]; [exists 1; split; [lra|]; intros t t' [L _] [L' _] _; destruct t, t'; try discriminate; rewrite Rminus_diag_eq, Rabs_R0 by reflexivity; exact He|].
    exists 1. split; [lra|]. intros t t' [_ Hb] _ _. specialize (Hb 0%nat ltac:(lia)). pose proof (Rabs_pos (nth 0 t 0)). lra.
Qed.
Lemma square_continuity : continuity (fun x => x * x).
Proof. intro x. apply (continuity_pt_mult id id); apply derivable_continuous_pt; apply derivable_pt_id. Qed.
Lemma ucont_scal n c f : ucont n f -> ucont n (fun t => c * f t).
Proof.
  apply (ucont_comp n f (fun x => c * x)). apply (continuity_ext (fun x => 0 + x * c)); [intro; ring|apply affine_continuity].
Qed.
Lemma ucont_mult n f g : ucont n f -> ucont n g -> ucont n (fun t => f t * g t).
Proof.
  intros Hf Hg. apply (ucont_ext n (fun t => / 4 * ((f t + g t) * (f t + g t)) + - (/ 4 * ((f t + - g t) * (f t + - g t))))); [intros; field|].
  apply ucont_plus; [|apply ucont_opp]; apply ucont_scal; [apply (ucont_comp n (fun t => f t + g t) (fun x => x * x))|apply (ucont_comp n (fun t => f t + - g t) (fun x => x * x))]; try apply square_continuity; apply ucont_plus; try apply ucont_opp; assumption.
Qed.
Lemma ucont_max n f g : ucont n f -> ucont n g -> ucont n (fun t => Rmax (f t) (g t)).
Proof.
  intros Hf Hg. apply (ucont_ext n (fun t => / 2 * ((f t + g t) + Rabs (f t + - g t)))).
  - intros t _. unfold Rmax, Rabs. destruct (Rle_dec (f t) (g t)); destruct (Rcase_abs (f t + - g t)); lra.
  - apply ucont_scal, ucont_plus; [now apply ucont_plus|]. apply (ucont_comp n (fun t => f t + - g t) Rabs); [intro x; apply Rcontinuity_abs|]. now apply ucont_plus, ucont_opp.
Qed.
Lemma ucont_sumn n k (f : nat -> list R -> R) : (forall i, (i < k)%nat -> ucont n (f i)) -> ucont n (fun t => sumn k (fun i => f i t)).
Proof. intro H. induction k as [|k IH]; cbn [sumn]; [apply ucont_const|]. apply ucont_plus; [apply IH; intros; apply H; lia|apply H; lia]. Qed.

(** A continuous function which is small outside some box has a maximum. *)
Lemma far_maximum n f B : 0 <= B -> ucont n f -> (forall t d, length t = n -> (d < n)%nat -> B < Rabs (nth d t 0) -> f t <= f (repeat 0 n)) -> exists t, length t = n /\ forall t', length t' = n -> f t' <= f t.
Proof.
  intros HB Hf Hfar. destruct (box_maximum n f B HB Hf) as (t & [Lt _] & Ht). exists t. split; [exact Lt|]. intros t' L'.
  assert (D : (exists d, (d < n)%nat /\ B < Rabs (nth d t' 0)) \/ forall d, (d < n)%nat -> Rabs (nth d t' 0) <= B).
  { clear - n. induction n as [|n IH]; [right; intros; lia|]. destruct IH as [(d & Hd & Hl)|IH]; [left; exists d; split; [lia|exact Hl]|]. destruct (Rle_lt_dec (Rabs (nth n t' 0)) B) as [Hl|Hl]; [right|left; exists n; split; [lia|exact Hl]].
    intros d Hd. destruct (Nat.eq_dec d n) as [->|]; [exact Hl|apply IH; lia]. }
  destruct D as [(d & Hd & Hl)|D]; [|apply Ht; now split]. eapply Rle_trans; [now apply (Hfar t' d)|]. apply Ht. now apply box_zero.
Qed.
