(** Proofs: derivatives of the B-spline basis functions. *)
From Verif Require Import Base BaseFacts RBase RFacts P_Spline4 M_BSpl P_BSpl1 M_BGrad.
Local Open Scope R_scope.

Lemma ratio_affine a b x : derivable_pt_lim (fun x => ratio (x - a) b) x (ratio 1 b).
Proof.
  unfold ratio. destruct (Req_EM_T b 0); [apply derivable_pt_lim_const|].
  apply (derivable_ext (fun x => / b * x + - (a / b))); [intro; field; assumption|].
  pose proof (derivable_pt_lim_plus (fun x => / b * x) (fun _ => - (a / b)) x _ _ (derivable_pt_lim_scal id (/ b) x 1 (derivable_pt_lim_id x)) (derivable_pt_lim_const (- (a / b)) x)) as H.
  replace (1 / b) with (/ b * 1 + 0) by (field; assumption). exact H.
Qed.
Lemma ratio_affine' a b x : derivable_pt_lim (fun x => ratio (a - x) b) x (- ratio 1 b).
Proof.
  apply (derivable_ext (fun x => - ratio (x - a) b)).
  - intro y. unfold ratio. destruct (Req_EM_T b 0); [ring|field; assumption].
  - apply (derivable_pt_lim_opp (fun x => ratio (x - a) b)). apply ratio_affine.
Qed.
Lemma derivable_locally f g x l d : 0 < d -> (forall y, Rabs (y - x) < d -> g y = f y) -> derivable_pt_lim g x l -> derivable_pt_lim f x l.
Proof.
  intros Hd E H eps He. destruct (H eps He) as [d1 H1]. assert (Hm : 0 < Rmin d1 d) by (apply Rmin_pos; [apply cond_pos|exact Hd]).
  exists (mkposreal _ Hm). intros h Hh Hlt. cbn in Hlt. pose proof (Rmin_l d1 d). pose proof (Rmin_r d1 d).
  rewrite <- !E; [apply H1; auto; lra| |]; replace (x - x) with 0 by ring; [rewrite Rabs_R0; lra|]. replace (x + h - x) with h by ring. lra.
Qed.
(** Where the derivative exists around a point and has a limit there, the limit is the derivative at the point. *)
Lemma derivable_limit f g x : (exists d, 0 < d /\ forall y, y <> x -> Rabs (y - x) < d -> derivable_pt_lim f y (g y)) ->
  continuity_pt f x -> continuity_pt g x -> derivable_pt_lim f x (g x).
Proof.
  intros (d & Hd & HD) Cf Cg eps He. destruct (Cg eps He) as (d2 & Hd2 & G). assert (Hm : 0 < Rmin d d2) by (apply Rmin_pos; lra).
  assert (K : forall y, y <> x -> Rabs (y - x) < d2 -> Rabs (g y - g x) < eps).
  { intros y Hy Hlt. apply (G y). split; [split; [exact I|congruence]|exact Hlt]. }
  assert (M : forall a b, a < b -> (a = x \/ b = x) -> b - a < Rmin d d2 -> exists c, a < c < b /\ f b - f a = (b - a) * g c).
  { intros a b Hab Hx Hlt. pose proof (Rmin_l d d2).
    assert (N : forall c, a < c < b -> c <> x /\ Rabs (c - x) < d).
    { intros c Hc. split; [destruct Hx; lra|]. apply Rabs_def1; destruct Hx; lra. }
    assert (Dc : forall c, a < c < b -> derivable_pt_lim f c (g c)) by (intros c Hc; apply HD; apply N; exact Hc).
    assert (Cc : forall c, a <= c <= b -> continuity_pt f c).
    { intros c Hc. destruct (Req_dec c x) as [->|Hn]; [exact Cf|]. apply derivable_continuous_pt. exists (g c). apply HD; [exact Hn|]. apply Rabs_def1; destruct Hx; lra. }
    destruct (MVT f id a b (fun c Hc => exist _ (g c) (Dc c Hc)) (fun c _ => derivable_pt_id c) Hab Cc (fun c _ => derivable_continuous_pt id c (derivable_pt_id c))) as (c & P & E).
    exists c. split; [exact P|]. rewrite derive_pt_id in E. unfold derive_pt in E. cbn [proj1_sig] in E. unfold id in E. lra. }
  exists (mkposreal _ Hm). intros h Hh Hlt. cbn in Hlt. pose proof (Rmin_r d d2) as Hr.
  destruct (Rlt_le_dec 0 h) as [Hp|Hp].
  - rewrite Rabs_right in Hlt by lra. destruct (M x (x + h) ltac:(lra) (or_introl eq_refl) ltac:(lra)) as (c & Hc & E).
    replace ((f (x + h) - f x) / h) with (g c); [|rewrite E; field; exact Hh]. apply K; [lra|]. apply Rabs_def1; lra.
  - assert (Hn : h < 0) by lra. rewrite Rabs_left in Hlt by exact Hn. destruct (M (x + h) x ltac:(lra) (or_intror eq_refl) ltac:(lra)) as (c & Hc & E).
    replace ((f (x + h) - f x) / h) with (g c); [apply K; [lra|]; apply Rabs_def1; lra|].
    replace (f (x + h) - f x) with (- (f x - f (x + h))) by ring. rewrite E. field. exact Hh.
Qed.
Lemma continuity_lipschitz f x L d : 0 < d -> (forall y, Rabs (y - x) < d -> Rabs (f y - f x) <= L * Rabs (y - x)) -> continuity_pt f x.
Proof.
  intros Hd H eps He. set (L' := Rabs L + 1). assert (HL : 0 < L') by (unfold L'; pose proof (Rabs_pos L); lra).
  assert (Hm : 0 < Rmin d (eps / L')) by (apply Rmin_pos; [exact Hd|apply Rmult_lt_0_compat; [exact He|now apply Rinv_0_lt_compat]]).
  exists (Rmin d (eps / L')). split; [exact Hm|]. intros y [_ Hy]. unfold Rlimit.dist, R_met, R_dist in *. cbn in *. unfold R_dist in *.
  pose proof (Rmin_l d (eps / L')). pose proof (Rmin_r d (eps / L')). assert (A : Rabs (f y - f x) <= L * Rabs (y - x)) by (apply H; lra).
  pose proof (Rle_abs L). pose proof (Rabs_pos (y - x)). assert (B : Rabs (y - x) * L' < eps).
  { apply Rlt_le_trans with (eps / L' * L'); [apply Rmult_lt_compat_r; lra|]. right. field. lra. }
  unfold L' in B. nra.
Qed.

Section Knots.
  Variable t : nat -> R.
  Hypothesis sorted : forall i j, (i <= j)%nat -> t i <= t j.

  Lemma bbasis_empty q i x : t (S i + q)%nat = t i -> bbasis t q i x = 0.
  Proof using sorted. intro E. apply bbasis_outside; [exact sorted|]. rewrite E. lra. Qed.
  (** The sum of the derivatives of the two lower basis functions, with the factors of the recursion. *)
  Lemma derivative_step p i x :
    ratio (x - t i) (t (i + S p)%nat - t i) * bbasis_derivative t p i x + ratio (t (S i + S p)%nat - x) (t (S i + S p)%nat - t (S i)) * bbasis_derivative t p (S i) x
    = INR p * (ratio (bbasis t p i x) (t (i + S p)%nat - t i) - ratio (bbasis t p (S i) x) (t (S i + S p)%nat - t (S i))).
  Proof using sorted.
    destruct p as [|q]; [cbn [bbasis_derivative INR]; ring|]. unfold bbasis_derivative. cbn [bbasis].
    pose proof (bbasis_empty q i x) as Z0. pose proof (bbasis_empty q (S i) x) as Z1. pose proof (bbasis_empty q (S (S i)) x) as Z2.
    set (B0 := bbasis t q i x) in *. set (B1 := bbasis t q (S i) x) in *. set (B2 := bbasis t q (S (S i)) x) in *. set (P := INR (S q)).
    replace (S i + q)%nat with (i + S q)%nat in * by lia. replace (S (S i) + q)%nat with (S i + S q)%nat in * by lia.
    replace (S (S (S i)) + q)%nat with (S (S i) + S q)%nat in * by lia. replace (i + S (S q))%nat with (S i + S q)%nat by lia. replace (S i + S (S q))%nat with (S (S i) + S q)%nat by lia.
    pose proof (sorted i (S i) ltac:(lia)). pose proof (sorted (S i) (S (S i)) ltac:(lia)). pose proof (sorted (i + S q) (S i + S q) ltac:(lia)). pose proof (sorted (S i + S q) (S (S i) + S q) ltac:(lia)).
    pose proof (sorted i (i + S q) ltac:(lia)). pose proof (sorted (S i) (S i + S q) ltac:(lia)). pose proof (sorted (S (S i)) (S (S i) + S q) ltac:(lia)).
    set (a := t i) in *. set (b := t (S i)) in *. set (b2 := t (S (S i))) in *. set (c := t (i + S q)%nat) in *. set (d := t (S i + S q)%nat) in *. set (e := t (S (S i) + S q)%nat) in *.
    clearbody B0 B1 B2 P a b b2 c d e. unfold ratio.
    destruct (Req_EM_T (c - a) 0); [rewrite (Z0 ltac:(lra))|]; (destruct (Req_EM_T (d - b) 0); [rewrite (Z1 ltac:(lra))|]); (destruct (Req_EM_T (e - b2) 0); [rewrite (Z2 ltac:(lra))|]);
      destruct (Req_EM_T (d - a) 0); destruct (Req_EM_T (e - b) 0); try (exfalso; lra); try (field; auto); try ring.
  Qed.
  Lemma derivative_rec p i x :
    derivable_pt_lim (bbasis t p i) x (bbasis_derivative t p i x) -> derivable_pt_lim (bbasis t p (S i)) x (bbasis_derivative t p (S i) x) ->
    derivable_pt_lim (bbasis t (S p) i) x (bbasis_derivative t (S p) i x).
  Proof using sorted.
    intros H0 H1. pose proof (derivable_pt_lim_plus _ _ _ _ _ (derivable_pt_lim_mult _ _ _ _ _ (ratio_affine (t i) (t (i + S p)%nat - t i) x) H0)
      (derivable_pt_lim_mult _ _ _ _ _ (ratio_affine' (t (S i + S p)%nat) (t (S i + S p)%nat - t (S i)) x) H1)) as H.
    match type of H with derivable_pt_lim _ _ ?l => replace (bbasis_derivative t (S p) i x) with l; [exact H|] end.
    pose proof (derivative_step p i x) as E. unfold bbasis_derivative at 3. rewrite S_INR.
    assert (R1 : forall B b, ratio 1 b * B = ratio B b) by (intros B b; unfold ratio; destruct (Req_EM_T b 0); [ring|field; auto]).
    assert (R2 : forall B b, - ratio 1 b * B = - ratio B b) by (intros B b; rewrite <- (R1 B b); ring). rewrite R1, R2. lra.
  Qed.
  (** Away from the knots. *)
  Lemma bbasis_derivable p : forall i x, (forall j, (i <= j <= S i + p)%nat -> t j <> x) -> derivable_pt_lim (bbasis t p i) x (bbasis_derivative t p i x).
  Proof using sorted.
    induction p as [|p IH]; intros i x H.
    - cbn [bbasis_derivative]. pose proof (H i ltac:(lia)). pose proof (H (S i) ltac:(lia)). pose proof (sorted i (S i) ltac:(lia)).
      destruct (Rlt_le_dec x (t i)) as [A|A]; [|destruct (Rlt_le_dec x (t (S i))) as [B|B]].
      + apply (derivable_locally _ (fun _ => 0) x 0 (t i - x)); [lra| |apply derivable_pt_lim_const]. intros y Hy. apply Rabs_def2 in Hy. cbn [bbasis]. destruct (Rle_dec (t i) y); [lra|reflexivity].
      + apply (derivable_locally _ (fun _ => 1) x 0 (Rmin (x - t i) (t (S i) - x))); [apply Rmin_pos; lra| |apply derivable_pt_lim_const].
        intros y Hy. apply Rabs_def2 in Hy. pose proof (Rmin_l (x - t i) (t (S i) - x)). pose proof (Rmin_r (x - t i) (t (S i) - x)). cbn [bbasis].
        destruct (Rle_dec (t i) y); [|lra]. destruct (Rlt_dec y (t (S i))); [reflexivity|lra].
      + apply (derivable_locally _ (fun _ => 0) x 0 (x - t (S i))); [lra| |apply derivable_pt_lim_const]. intros y Hy. apply Rabs_def2 in Hy. cbn [bbasis].
        destruct (Rle_dec (t i) y); [|reflexivity]. destruct (Rlt_dec y (t (S i))); [lra|reflexivity].
    - apply derivative_rec; apply IH; intros j Hj; apply H; lia.
  Qed.
  (** At most one of the knots [i .. j] is [x]. *)
  Definition single (i j : nat) (x : R) : Prop := forall k l, (i <= k < l)%nat -> (l <= j)%nat -> t k = x -> t l = x -> False.
  Lemma knots_apart i n x : exists d, 0 < d /\ forall y, y <> x -> Rabs (y - x) < d -> forall j, (i <= j < i + n)%nat -> t j <> y.
  Proof using .
    clear sorted. induction n as [|n (d & Hd & IH)]; [exists 1; split; [lra|]; intros; lia|].
    destruct (Req_dec (t (i + n)%nat) x) as [E|E].
    - exists d. split; [exact Hd|]. intros y Hy Hlt j Hj. destruct (Nat.eq_dec j (i + n)) as [->|]; [congruence|]. apply IH; auto; lia.
    - assert (Hp : 0 < Rabs (t (i + n)%nat - x)) by (apply Rabs_pos_lt; lra). exists (Rmin d (Rabs (t (i + n)%nat - x))). split; [now apply Rmin_pos|].
      intros y Hy Hlt j Hj. pose proof (Rmin_l d (Rabs (t (i + n)%nat - x))). pose proof (Rmin_r d (Rabs (t (i + n)%nat - x))).
      destruct (Nat.eq_dec j (i + n)) as [->|]; [|apply IH; auto; [lra|lia]]. intro Ey. rewrite Ey in *. lra.
  Qed.
  Lemma around p i x : exists d, 0 < d /\ forall y, y <> x -> Rabs (y - x) < d -> derivable_pt_lim (bbasis t p i) y (bbasis_derivative t p i y).
  Proof using sorted.
    destruct (knots_apart i (p + 2) x) as (d & Hd & H). exists d. split; [exact Hd|]. intros y Hy Hlt. apply bbasis_derivable. intros j Hj. apply (H y Hy Hlt). lia.
  Qed.
  Lemma hat_continuous i x : single i (S (S i)) x -> continuity_pt (bbasis t 1 i) x.
  Proof using sorted.
    intro H1. destruct (Req_dec (t i) x) as [Ea|Ea]; [|destruct (Req_dec (t (S i)) x) as [Eb|Eb]; [|destruct (Req_dec (t (S (S i))) x) as [Ec|Ec]]].
    4: { apply derivable_continuous_pt. eexists. apply bbasis_derivable. intros j Hj. assert (j = i \/ j = S i \/ j = S (S i)) as [->|[->| ->]] by lia; assumption. }
    all: pose proof (sorted i (S i) ltac:(lia)) as L1; pose proof (sorted (S i) (S (S i)) ltac:(lia)) as L2.
    - assert (Hab : t i < t (S i)) by (destruct (Rle_lt_or_eq_dec _ _ L1) as [?|E]; [auto|exfalso; apply (H1 i (S i)); lia || lra]).
      apply (continuity_lipschitz _ _ (/ (t (S i) - t i)) (t (S i) - t i)); [lra|]. intros y Hy. apply Rabs_def2 in Hy.
      cbn [bbasis]. replace (i + 1)%nat with (S i) by lia. replace (S i + 1)%nat with (S (S i)) by lia. unfold ratio.
      destruct (Req_EM_T (t (S i) - t i) 0); [lra|]. assert (0 < / (t (S i) - t i)) by (apply Rinv_0_lt_compat; lra).
      destruct (Rle_dec (t i) x); [|lra]. destruct (Rlt_dec x (t (S i))); [|lra]. destruct (Rle_dec (t (S i)) x); [lra|]. destruct (Rle_dec (t (S i)) y); [lra|].
      rewrite !Rmult_0_r, !Rplus_0_r. destruct (Rle_dec (t i) y).
      + destruct (Rlt_dec y (t (S i))); [|lra]. rewrite !Rmult_1_r. replace ((y - t i) / (t (S i) - t i) - (x - t i) / (t (S i) - t i)) with (/ (t (S i) - t i) * (y - x)) by (field; assumption).
        rewrite Rabs_mult, (Rabs_right (/ _)) by lra. lra.
      + rewrite Rmult_0_r, Rmult_1_r. rewrite <- Ea. replace (0 - (t i - t i) / (t (S i) - t i)) with 0 by (field; assumption). rewrite Rabs_R0. apply Rmult_le_pos; [lra|apply Rabs_pos].
    - assert (Hab : t i < t (S i)) by (destruct (Rle_lt_or_eq_dec _ _ L1) as [?|E]; [auto|exfalso; apply (H1 i (S i)); lia || lra]).
      assert (Hbc : t (S i) < t (S (S i))) by (destruct (Rle_lt_or_eq_dec _ _ L2) as [?|E]; [auto|exfalso; apply (H1 (S i) (S (S i))); lia || lra]).
      apply (continuity_lipschitz _ _ (/ (t (S i) - t i) + / (t (S (S i)) - t (S i))) (Rmin (t (S i) - t i) (t (S (S i)) - t (S i)))); [apply Rmin_pos; lra|]. intros y Hy. apply Rabs_def2 in Hy.
      pose proof (Rmin_l (t (S i) - t i) (t (S (S i)) - t (S i))). pose proof (Rmin_r (t (S i) - t i) (t (S (S i)) - t (S i))).
      cbn [bbasis]. replace (i + 1)%nat with (S i) by lia. replace (S i + 1)%nat with (S (S i)) by lia. unfold ratio.
      destruct (Req_EM_T (t (S i) - t i) 0); [lra|]. destruct (Req_EM_T (t (S (S i)) - t (S i)) 0); [lra|].
      assert (I1 : 0 < / (t (S i) - t i)) by (apply Rinv_0_lt_compat; lra). assert (I2 : 0 < / (t (S (S i)) - t (S i))) by (apply Rinv_0_lt_compat; lra).
      destruct (Rle_dec (t i) x); [|lra]. destruct (Rlt_dec x (t (S i))); [lra|]. destruct (Rle_dec (t (S i)) x); [|lra]. destruct (Rlt_dec x (t (S (S i)))); [|lra].
      rewrite <- Eb in *. pose proof (Rabs_pos (y - t (S i))).
      replace ((t (S (S i)) - t (S i)) / (t (S (S i)) - t (S i))) with 1 by (field; assumption).
      destruct (Rle_dec (t i) y); [|lra]. destruct (Rle_dec (t (S i)) y).
      + destruct (Rlt_dec y (t (S i))); [lra|]. destruct (Rlt_dec y (t (S (S i)))); [|lra].
        replace (_ * 0 + _ * 1 - (_ * 0 + 1 * 1)) with (/ (t (S (S i)) - t (S i)) * - (y - t (S i))) by (field; auto). rewrite Rabs_mult, (Rabs_right (/ _)), Rabs_Ropp by lra. nra.
      + destruct (Rlt_dec y (t (S i))); [|lra].
        replace (_ * 1 + _ * 0 - (_ * 0 + 1 * 1)) with (/ (t (S i) - t i) * (y - t (S i))) by (field; auto). rewrite Rabs_mult, (Rabs_right (/ _)) by lra. nra.
    - assert (Hbc : t (S i) < t (S (S i))) by (destruct (Rle_lt_or_eq_dec _ _ L2) as [?|E]; [auto|exfalso; apply (H1 (S i) (S (S i))); lia || lra]).
      apply (continuity_lipschitz _ _ (/ (t (S (S i)) - t (S i))) (t (S (S i)) - t (S i))); [lra|]. intros y Hy. apply Rabs_def2 in Hy.
      cbn [bbasis]. replace (i + 1)%nat with (S i) by lia. replace (S i + 1)%nat with (S (S i)) by lia. unfold ratio.
      destruct (Req_EM_T (t (S (S i)) - t (S i)) 0); [lra|]. assert (I2 : 0 < / (t (S (S i)) - t (S i))) by (apply Rinv_0_lt_compat; lra).
      destruct (Rle_dec (t i) x); [|lra]. destruct (Rlt_dec x (t (S i))); [lra|]. destruct (Rle_dec (t (S i)) x); [|lra]. destruct (Rlt_dec x (t (S (S i)))); [lra|].
      destruct (Rle_dec (t i) y); [|lra]. destruct (Rlt_dec y (t (S i))); [lra|]. destruct (Rle_dec (t (S i)) y); [|lra]. rewrite !Rmult_0_r, !Rplus_0_l. pose proof (Rabs_pos (y - x)).
      destruct (Rlt_dec y (t (S (S i)))).
      + rewrite Rmult_1_r, Rminus_0_r. replace ((t (S (S i)) - y) / (t (S (S i)) - t (S i))) with (/ (t (S (S i)) - t (S i)) * - (y - x)) by (rewrite <- Ec; field; auto).
        rewrite Rabs_mult, (Rabs_right (/ _)), Rabs_Ropp by lra. lra.
      + rewrite Rmult_0_r, Rminus_0_r, Rabs_R0. nra.
  Qed.
  Lemma ratio_continuous f b x : continuity_pt f x -> continuity_pt (fun y => ratio (f y) b) x.
  Proof using .
    clear sorted. intro H. unfold ratio. destruct (Req_EM_T b 0).
    - apply continuity_pt_const. now intros ? ?.
    - apply (continuity_pt_mult f (fun _ => / b)); [exact H|]. apply continuity_pt_const. now intros ? ?.
  Qed.
  Lemma bbasis_continuous p : forall i x, single i (S i + S p) x -> continuity_pt (bbasis t (S p) i) x.
  Proof using sorted.
    induction p as [|p IH]; intros i x H.
    - apply hat_continuous. replace (S (S i)) with (S i + 1)%nat by lia. exact H.
    - assert (H0 : continuity_pt (bbasis t (S p) i) x) by (apply IH; intros k l Hk Hl; apply H; lia).
      assert (H1 : continuity_pt (bbasis t (S p) (S i)) x) by (apply IH; intros k l Hk Hl; apply H; lia).
      apply (continuity_pt_plus (fun x => ratio (x - t i) (t (i + S (S p))%nat - t i) * bbasis t (S p) i x)
        (fun x => ratio (t (S i + S (S p))%nat - x) (t (S i + S (S p))%nat - t (S i)) * bbasis t (S p) (S i) x)).
      + apply (continuity_pt_mult (fun x => ratio (x - t i) (t (i + S (S p))%nat - t i))); [|exact H0]. apply derivable_continuous_pt. eexists. apply ratio_affine.
      + apply (continuity_pt_mult (fun x => ratio (t (S i + S (S p))%nat - x) (t (S i + S (S p))%nat - t (S i)))); [|exact H1]. apply derivable_continuous_pt. eexists. apply ratio_affine'.
  Qed.
  (** Also at a simple knot, from degree two on. *)
  Lemma bbasis_derivable_knot p i x : single i (S i + S (S p)) x -> derivable_pt_lim (bbasis t (S (S p)) i) x (bbasis_derivative t (S (S p)) i x).
  Proof using sorted.
    intro H. apply derivable_limit; [apply around|now apply bbasis_continuous|]. unfold bbasis_derivative.
    apply (continuity_pt_mult (fun _ => INR (S (S p)))); [apply continuity_pt_const; now intros ? ?|].
    apply (continuity_pt_minus (fun x => ratio (bbasis t (S p) i x) _) (fun x => ratio (bbasis t (S p) (S i) x) _)); apply ratio_continuous, bbasis_continuous; intros k l Hk Hl; apply H; lia.
  Qed.
  Lemma bbasis_derivable_from_two p i x : (2 <= p)%nat -> single i (S i + p) x -> derivable_pt_lim (bbasis t p i) x (bbasis_derivative t p i x).
  Proof using sorted. destruct p as [|[|p]]; [lia|lia|]. intros _. apply bbasis_derivable_knot. Qed.
End Knots.
(** A basis function of degree one has a corner at its middle knot. *)
Lemma hat_corner (t : nat -> R) i l : t i < t (S i) -> t (S i) < t (S (S i)) -> ~ derivable_pt_lim (bbasis t 1 i) (t (S i)) l.
Proof.
  intros Hab Hbc H. set (a := t i) in *. set (b := t (S i)) in *. set (c := t (S (S i))) in *.
  assert (V : forall y, a <= y < c -> bbasis t 1 i y = if Rle_dec b y then (c - y) / (c - b) else (y - a) / (b - a)).
  { intros y Hy. cbn [bbasis]. replace (i + 1)%nat with (S i) by lia. replace (S i + 1)%nat with (S (S i)) by lia. fold a b c. unfold ratio.
    destruct (Req_EM_T (b - a) 0); [lra|]. destruct (Req_EM_T (c - b) 0); [lra|]. destruct (Rle_dec a y); [|lra]. destruct (Rle_dec b y).
    - destruct (Rlt_dec y b); [lra|]. destruct (Rlt_dec y c); [|lra]. ring.
    - destruct (Rlt_dec y b); [|lra]. ring. }
  assert (I1 : 0 < / (b - a)) by (apply Rinv_0_lt_compat; lra). assert (I2 : 0 < / (c - b)) by (apply Rinv_0_lt_compat; lra).
  destruct (H ((/ (b - a) + / (c - b)) / 2) ltac:(lra)) as [d Hd]. pose proof (cond_pos d) as Hp.
  set (h := Rmin (d / 2) (Rmin ((b - a) / 2) ((c - b) / 2))). assert (Hh : 0 < h) by (unfold h; repeat apply Rmin_pos; lra).
  pose proof (Rmin_l (d / 2) (Rmin ((b - a) / 2) ((c - b) / 2))) as L1. pose proof (Rmin_r (d / 2) (Rmin ((b - a) / 2) ((c - b) / 2))) as L2.
  pose proof (Rmin_l ((b - a) / 2) ((c - b) / 2)) as L3. pose proof (Rmin_r ((b - a) / 2) ((c - b) / 2)) as L4. fold h in L1, L2.
  pose proof (Hd h ltac:(lra) ltac:(rewrite Rabs_right; lra)) as P. pose proof (Hd (- h) ltac:(lra) ltac:(rewrite Rabs_Ropp, Rabs_right; lra)) as N.
  rewrite !V in P by lra. rewrite !V in N by lra. destruct (Rle_dec b (b + h)); [|lra]. destruct (Rle_dec b b); [|lra]. destruct (Rle_dec b (b + - h)); [lra|].
  replace (((c - (b + h)) / (c - b) - (c - b) / (c - b)) / h) with (- / (c - b)) in P by (field; lra).
  replace (((b + - h - a) / (b - a) - (c - b) / (c - b)) / - h) with (/ (b - a)) in N by (field; lra).
  apply Rabs_def2 in P. apply Rabs_def2 in N. lra.
Qed.
