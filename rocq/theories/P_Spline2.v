(** Lemmas: a piecewise rational-quadratic function with linear tails. *)
From Verif Require Import Base BaseFacts RBase RFacts P_Mono1 P_Spline1.
Local Open Scope R_scope.

Lemma continuity_glue f g1 g2 x d : 0 < d ->
  (forall y, x - d < y <= x -> f y = g1 y) -> (forall y, x <= y < x + d -> f y = g2 y) ->
  continuity_pt g1 x -> continuity_pt g2 x -> continuity_pt f x.
Proof.
  intros Hd E1 E2 C1 C2 eps He.
  destruct (C1 eps He) as (a1 & Ha1 & B1). destruct (C2 eps He) as (a2 & Ha2 & B2).
  exists (Rmin d (Rmin a1 a2)). split; [repeat apply Rmin_pos; assumption|].
  intros y [[_ Hne] Hy]. cbn in *. unfold R_dist in *.
  assert (Rabs (y - x) < d) by (eapply Rlt_le_trans; [exact Hy|apply Rmin_l]).
  assert (Rabs (y - x) < a1) by (eapply Rlt_le_trans; [exact Hy|eapply Rle_trans; [apply Rmin_r|apply Rmin_l]]).
  assert (Rabs (y - x) < a2) by (eapply Rlt_le_trans; [exact Hy|eapply Rle_trans; [apply Rmin_r|apply Rmin_r]]).
  apply Rabs_def2 in H. destruct (Rle_lt_dec y x).
  - rewrite (E1 y), (E1 x) by lra. apply B1. split; [split; [exact I|assumption]|assumption].
  - rewrite (E2 y), (E2 x) by lra. apply B2. split; [split; [exact I|assumption]|assumption].
Qed.
Lemma derivable_continuous_lim f x l : derivable_pt_lim f x l -> continuity_pt f x.
Proof. intros H. apply derivable_continuous_pt. exists l. exact H. Qed.

Section Piece.
  Variable n : nat.
  Variables X Y d : nat -> R.
  Variable sl : R.
  Variable F : R -> R.
  Hypothesis Hn : (0 < n)%nat.
  Hypothesis HX : forall k, (k < n)%nat -> X k < X (S k).
  Hypothesis HY : forall k, (k < n)%nat -> Y k < Y (S k).
  Hypothesis Hd : forall k, (k <= n)%nat -> 0 < d k.
  Hypothesis Hsl : 0 < sl.

  Definition ww k := X (S k) - X k.
  Definition hh k := Y (S k) - Y k.
  Definition ss k := hh k / ww k.
  Definition tt_ k x := (x - X k) / ww k.
  Definition piece k x := Y k + bphi (ss k) (d k) (d (S k)) (hh k) (tt_ k x).
  Definition pslope k x :=
    ss k ^ 2 * (d (S k) * tt_ k x ^ 2 + 2 * ss k * (tt_ k x * (1 - tt_ k x)) + d k * (1 - tt_ k x) ^ 2)
    / bd (ss k) (d k) (d (S k)) (tt_ k x) ^ 2.

  Hypothesis HF : forall k x, (k < n)%nat -> X k <= x <= X (S k) -> F x = piece k x.
  Hypothesis HFlo : forall x, x <= X O -> F x = Y O + (x - X O) * sl.
  Hypothesis HFhi : forall x, X n <= x -> F x = Y n + (x - X n) * sl.

  Lemma ww_pos k : (k < n)%nat -> 0 < ww k.
  Proof. intros H. unfold ww. pose proof (HX k H). lra. Qed.
  Lemma hh_pos k : (k < n)%nat -> 0 < hh k.
  Proof. intros H. unfold hh. pose proof (HY k H). lra. Qed.
  Lemma ss_pos k : (k < n)%nat -> 0 < ss k.
  Proof. intros H. apply Rdiv_lt_0_compat; [apply hh_pos|apply ww_pos]; assumption. Qed.
  Lemma tt_bounds k x : (k < n)%nat -> X k <= x <= X (S k) -> 0 <= tt_ k x <= 1.
  Proof.
    intros H Hx. pose proof (ww_pos k H) as W. unfold tt_. split.
    - apply Rmult_le_pos; [lra|left; apply Rinv_0_lt_compat; assumption].
    - apply (Rmult_le_reg_r (ww k)); [assumption|]. unfold Rdiv. rewrite Rmult_assoc, Rinv_l by lra. unfold ww. lra.
  Qed.
  Lemma tt_lt k x y : (k < n)%nat -> x < y -> tt_ k x < tt_ k y.
  Proof.
    intros H Hxy. unfold tt_, Rdiv. apply Rmult_lt_compat_r; [apply Rinv_0_lt_compat, ww_pos; assumption|lra].
  Qed.
  Lemma tt_lo k : tt_ k (X k) = 0.
  Proof. unfold tt_. unfold Rdiv. ring. Qed.
  Lemma tt_hi k : (k < n)%nat -> tt_ k (X (S k)) = 1.
  Proof. intros H. pose proof (ww_pos k H). unfold tt_. fold (ww k). field. lra. Qed.
  Lemma X_mono i j : (i <= j <= n)%nat -> X i <= X j.
  Proof. intros [H1 H2]. induction j as [|j IH]; [assert (i = O) by lia; subst; lra|].
    destruct (Nat.eq_dec i (S j)) as [->|]; [lra|]. pose proof (IH ltac:(lia) ltac:(lia)). pose proof (HX j ltac:(lia)). lra. Qed.
  Lemma Y_mono i j : (i <= j <= n)%nat -> Y i <= Y j.
  Proof. intros [H1 H2]. induction j as [|j IH]; [assert (i = O) by lia; subst; lra|].
    destruct (Nat.eq_dec i (S j)) as [->|]; [lra|]. pose proof (IH ltac:(lia) ltac:(lia)). pose proof (HY j ltac:(lia)). lra. Qed.
  Lemma piece_lo k : (k < n)%nat -> piece k (X k) = Y k.
  Proof. intros H. unfold piece. rewrite tt_lo, bphi_0 by (apply ss_pos; assumption). ring. Qed.
  Lemma piece_hi k : (k < n)%nat -> piece k (X (S k)) = Y (S k).
  Proof. intros H. unfold piece. rewrite tt_hi, bphi_1 by (try apply ss_pos; assumption). unfold hh. ring. Qed.
  Lemma piece_incr k x y : (k < n)%nat -> X k <= x -> x < y -> y <= X (S k) -> piece k x < piece k y.
  Proof.
    intros H Hx Hxy Hy. unfold piece. apply Rplus_lt_compat_l. apply bphi_incr.
    - apply ss_pos; assumption.
    - apply Hd; lia.
    - apply Hd; lia.
    - apply hh_pos; assumption.
    - apply tt_bounds; [assumption|lra].
    - apply tt_lt; assumption.
    - apply tt_bounds; [assumption|lra].
  Qed.
  Lemma locate x : X O <= x <= X n -> exists k, (k < n)%nat /\ X k <= x <= X (S k) /\ (x < X (S k) \/ S k = n).
  Proof.
    intros Hx. assert (G : forall m, (m <= n)%nat -> (0 < m)%nat -> x <= X m ->
      exists k, (k < m)%nat /\ X k <= x <= X (S k) /\ (x < X (S k) \/ S k = m)).
    { induction m as [|m IH]; intros Hm Hp Hle; [lia|].
      destruct (Rlt_le_dec x (X m)) as [Hlt|Hge].
      - destruct m as [|m]; [lra|]. destruct (IH ltac:(lia) ltac:(lia) ltac:(lra)) as (k & Hk & Hb & [He|He]).
        + exists k. split; [lia|]. auto.
        + exists k. split; [lia|]. split; [assumption|]. left. rewrite He. assumption.
      - exists m. split; [lia|]. split; [split; assumption|]. right; reflexivity. }
    apply G; lia || lra.
  Qed.
  Lemma F_knot k : (k <= n)%nat -> F (X k) = Y k.
  Proof.
    intros H. destruct k as [|k].
    - rewrite (HF O) by (try assumption; pose proof (HX O Hn); lra). apply piece_lo; assumption.
    - rewrite (HF k) by (try lia; pose proof (HX k ltac:(lia)); lra). apply piece_hi; lia.
  Qed.
  Lemma F_bin k x : (k < n)%nat -> X k <= x <= X (S k) -> Y k <= F x <= Y (S k).
  Proof.
    intros H Hx. rewrite (HF k) by assumption. split.
    - destruct (Req_EM_T x (X k)) as [->|]; [rewrite piece_lo by assumption; lra|].
      rewrite <- (piece_lo k H). left. apply piece_incr; [assumption|lra|lra|lra].
    - destruct (Req_EM_T x (X (S k))) as [->|]; [rewrite piece_hi by assumption; lra|].
      rewrite <- (piece_hi k H). left. apply piece_incr; [assumption|lra|lra|lra].
  Qed.
  Lemma F_bin_strict k x : (k < n)%nat -> X k <= x < X (S k) -> F x < Y (S k).
  Proof. intros H Hx. rewrite (HF k) by (auto; lra). rewrite <- (piece_hi k H). apply piece_incr; [assumption|lra|lra|lra]. Qed.
  Lemma F_incr x y : x < y -> F x < F y.
  Proof.
    intros Hxy.
    assert (L : forall x, x <= X O -> F x <= Y O).
    { intros u Hu. rewrite HFlo by assumption. assert ((X O - u) * sl >= 0) by (apply Rle_ge, Rmult_le_pos; lra). lra. }
    assert (U : forall x, X n <= x -> Y n <= F x).
    { intros u Hu. rewrite HFhi by assumption. assert (0 <= (u - X n) * sl) by (apply Rmult_le_pos; lra). lra. }
    pose proof (X_mono O n ltac:(lia)) as X0n. pose proof (Y_mono O n ltac:(lia)) as Y0n.
    assert (I : forall x, X O <= x <= X n -> Y O <= F x <= Y n).
    { intros u Hu. destruct (locate u Hu) as (k & Hk & Hb & _). pose proof (F_bin k u Hk Hb).
      pose proof (Y_mono O k ltac:(lia)). pose proof (Y_mono (S k) n ltac:(lia)). lra. }
    destruct (Rlt_le_dec y (X O)) as [Hy|Hy].
    { rewrite !HFlo by lra. apply Rplus_lt_compat_l, Rmult_lt_compat_r; lra. }
    destruct (Rlt_le_dec (X n) x) as [Hx|Hx].
    { rewrite !HFhi by lra. apply Rplus_lt_compat_l, Rmult_lt_compat_r; lra. }
    destruct (Rlt_le_dec x (X O)) as [Hx0|Hx0].
    { assert (F x < Y O).
      { rewrite HFlo by lra. assert (0 < (X O - x) * sl) by (apply Rmult_lt_0_compat; lra). lra. }
      destruct (Rle_lt_dec y (X n)); [pose proof (I y ltac:(lra)); lra|pose proof (U y ltac:(lra)); lra]. }
    destruct (Rlt_le_dec (X n) y) as [Hyn|Hyn].
    { assert (Y n < F y).
      { rewrite HFhi by lra. assert (0 < (y - X n) * sl) by (apply Rmult_lt_0_compat; lra). lra. }
      pose proof (I x ltac:(lra)). lra. }
    destruct (locate x ltac:(lra)) as (k & Hk & Hb & He). destruct (locate y ltac:(lra)) as (j & Hj & Hc & Hf).
    destruct (lt_eq_lt_dec k j) as [[Hlt|Heq]|Hgt].
    - destruct He as [He|He]; [|lia]. pose proof (F_bin_strict k x Hk ltac:(lra)). pose proof (F_bin j y Hj Hc).
      pose proof (Y_mono (S k) j ltac:(lia)). lra.
    - subst j. rewrite !(HF k) by assumption. apply piece_incr; [assumption|lra|lra|lra].
    - destruct Hf as [Hf|Hf]; [|lia]. pose proof (X_mono (S j) k ltac:(lia)). lra.
  Qed.
  Lemma piece_deriv k x : (k < n)%nat -> X k <= x <= X (S k) -> derivable_pt_lim (piece k) x (pslope k x).
  Proof.
    intros H Hx. pose proof (ww_pos k H) as W. pose proof (ss_pos k H) as S.
    pose proof (bphi_deriv (ss k) (d k) (d (Datatypes.S k)) (hh k) S (Hd k ltac:(lia)) (Hd (Datatypes.S k) ltac:(lia)) (tt_ k x) (tt_bounds k x H Hx)) as D.
    assert (T : derivable_pt_lim (tt_ k) x (/ ww k)).
    { unfold tt_. intros e He. exists (mkposreal 1 Rlt_0_1). intros h Hh _.
      match goal with |- Rabs ?e < _ => replace e with 0 by (field; lra) end. rewrite Rabs_R0; assumption. }
    pose proof (derivable_pt_lim_comp _ _ _ _ _ T D) as C.
    pose proof (derivable_pt_lim_plus (fun _ => Y k) _ x 0 _ (derivable_pt_lim_const (Y k) x) C) as P.
    match type of P with derivable_pt_lim _ _ ?l => replace (pslope k x) with l end; [exact P|].
    pose proof (bd_pos (ss k) (d k) (d (Datatypes.S k)) S (Hd k ltac:(lia)) (Hd (Datatypes.S k) ltac:(lia)) (tt_ k x) (tt_bounds k x H Hx)) as B.
    unfold pslope, bq. replace (hh k) with (ss k * ww k) by (unfold ss; field; lra). field. lra.
  Qed.
  Lemma pslope_lo k : (k < n)%nat -> pslope k (X k) = d k.
  Proof. intros H. pose proof (ss_pos k H). unfold pslope. rewrite tt_lo. unfold bd. field. lra. Qed.
  Lemma pslope_hi k : (k < n)%nat -> pslope k (X (S k)) = d (S k).
  Proof. intros H. pose proof (ss_pos k H). unfold pslope. rewrite tt_hi by assumption. unfold bd. field. lra. Qed.
  Lemma pslope_pos k x : (k < n)%nat -> X k <= x <= X (S k) -> 0 < pslope k x.
  Proof.
    intros H Hx. pose proof (ss_pos k H) as S. pose proof (tt_bounds k x H Hx) as T.
    pose proof (bd_pos (ss k) (d k) (d (Datatypes.S k)) S (Hd k ltac:(lia)) (Hd (Datatypes.S k) ltac:(lia)) (tt_ k x) T) as B.
    pose proof (bq_pos (ss k) (d k) (d (Datatypes.S k)) S (Hd k ltac:(lia)) (Hd (Datatypes.S k) ltac:(lia)) (tt_ k x) (tt_ k x) T T) as Q.
    unfold pslope. apply Rdiv_lt_0_compat; [|apply pow_lt; assumption]. apply Rmult_lt_0_compat; [apply pow_lt; assumption|].
    unfold bq in Q. replace (d (Datatypes.S k) * tt_ k x ^ 2 + 2 * ss k * (tt_ k x * (1 - tt_ k x)) + d k * (1 - tt_ k x) ^ 2)
      with (ss k * (tt_ k x * (1 - tt_ k x) + tt_ k x * (1 - tt_ k x)) + d k * ((1 - tt_ k x) * (1 - tt_ k x)) + d (Datatypes.S k) * (tt_ k x * tt_ k x)) by ring.
    assumption.
  Qed.
  (** Inside the interval the derivative is the slope of the piece, knots included. *)
  Lemma F_deriv k x : (k < n)%nat -> X k <= x <= X (S k) -> X O < x < X n -> derivable_pt_lim F x (pslope k x).
  Proof.
    intros H Hx Hin.
    assert (Left : forall j, (S j < n)%nat -> derivable_pt_lim F (X (S j)) (d (S j))).
    { intros j Hj. pose proof (HX j ltac:(lia)). pose proof (HX (S j) Hj).
      apply (derivable_glue F (piece j) (piece (S j)) (X (S j)) (d (S j)) (Rmin (X (S j) - X j) (X (S (S j)) - X (S j)))).
      - apply Rmin_pos; lra.
      - intros h Hh. apply HF; [lia|]. pose proof (Rmin_l (X (S j) - X j) (X (S (S j)) - X (S j))). lra.
      - intros h Hh. apply HF; [lia|]. pose proof (Rmin_r (X (S j) - X j) (X (S (S j)) - X (S j))). lra.
      - rewrite <- (pslope_hi j) by lia. apply piece_deriv; [lia|lra].
      - rewrite <- (pslope_lo (S j)) by lia. apply piece_deriv; [lia|lra]. }
    destruct (Req_EM_T x (X k)) as [->|N1].
    - destruct k as [|k]; [lra|]. rewrite pslope_lo by assumption. apply Left; assumption.
    - destruct (Req_EM_T x (X (S k))) as [->|N2].
      + destruct (Nat.eq_dec (S k) n) as [E|]; [rewrite E in *; lra|]. rewrite pslope_hi by assumption. apply Left; lia.
      + apply (derivable_local F (piece k) x (pslope k x) (Rmin (x - X k) (X (S k) - x))).
        * apply Rmin_pos; lra.
        * intros h Hh. apply HF; [assumption|]. apply Rabs_def2 in Hh.
          pose proof (Rmin_l (x - X k) (X (S k) - x)). pose proof (Rmin_r (x - X k) (X (S k) - x)). lra.
        * apply piece_deriv; assumption.
  Qed.
  Lemma tail_deriv a b x : derivable_pt_lim (fun u => a + (u - b) * sl) x sl.
  Proof.
    intros e He. exists (mkposreal 1 Rlt_0_1). intros h Hh _.
    match goal with |- Rabs ?e < _ => replace e with 0 by (field; assumption) end. rewrite Rabs_R0; assumption.
  Qed.
  Lemma F_deriv_outside x : x < X O \/ X n < x -> derivable_pt_lim F x sl.
  Proof.
    intros [Hx|Hx].
    - apply (derivable_local F (fun u => Y O + (u - X O) * sl) x sl (X O - x)); [lra| |apply tail_deriv].
      intros h Hh. apply HFlo. apply Rabs_def2 in Hh. lra.
    - apply (derivable_local F (fun u => Y n + (u - X n) * sl) x sl (x - X n)); [lra| |apply tail_deriv].
      intros h Hh. apply HFhi. apply Rabs_def2 in Hh. lra.
  Qed.
  Lemma F_deriv_ends x : (x = X O /\ sl = d O) \/ (x = X n /\ sl = d n) -> derivable_pt_lim F x sl.
  Proof.
    intros [[-> E]|[-> E]].
    - pose proof (HX O Hn). apply (derivable_glue F (fun u => Y O + (u - X O) * sl) (piece O) (X O) sl (X 1%nat - X O)); [lra| | |apply tail_deriv|].
      + intros h Hh. apply HFlo. lra.
      + intros h Hh. apply HF; [assumption|lra].
      + rewrite E, <- (pslope_lo O) by assumption. apply piece_deriv; [assumption|lra].
    - destruct (Nat.lt_exists_pred 0 n Hn) as (m & En & _). pose proof (HX m ltac:(lia)) as Hm. rewrite En in E |- *.
      apply (derivable_glue F (piece m) (fun u => Y (S m) + (u - X (S m)) * sl) (X (S m)) sl (X (S m) - X m)); [lra| | | |apply tail_deriv].
      + intros h Hh. apply HF; [lia|lra].
      + intros h Hh. rewrite <- En. apply HFhi. rewrite En. lra.
      + rewrite E, <- (pslope_hi m) by lia. apply piece_deriv; [lia|lra].
  Qed.
  Lemma F_cont x : continuity_pt F x.
  Proof.
    pose proof (X_mono O n ltac:(lia)) as X0n.
    destruct (Rlt_le_dec x (X O)) as [H1|H1]; [eapply derivable_continuous_lim, F_deriv_outside; auto|].
    destruct (Rlt_le_dec (X n) x) as [H2|H2]; [eapply derivable_continuous_lim, F_deriv_outside; auto|].
    destruct (Req_EM_T x (X O)) as [->|N1].
    - pose proof (HX O Hn). apply (continuity_glue F (fun u => Y O + (u - X O) * sl) (piece O) (X O) (X 1%nat - X O)); [lra| | | |].
      + intros y Hy. apply HFlo. lra.
      + intros y Hy. apply HF; [assumption|lra].
      + eapply derivable_continuous_lim, tail_deriv.
      + eapply derivable_continuous_lim, piece_deriv; [assumption|lra].
    - destruct (Req_EM_T x (X n)) as [->|N2].
      + destruct (Nat.lt_exists_pred 0 n Hn) as (m & En & _). pose proof (HX m ltac:(lia)) as Hm. rewrite En.
        apply (continuity_glue F (piece m) (fun u => Y (S m) + (u - X (S m)) * sl) (X (S m)) (X (S m) - X m)); [lra| | | |].
        * intros y Hy. apply HF; [lia|lra].
        * intros y Hy. rewrite <- En. apply HFhi. rewrite En. lra.
        * eapply derivable_continuous_lim, piece_deriv; [lia|lra].
        * eapply derivable_continuous_lim, tail_deriv.
      + destruct (locate x ltac:(lra)) as (k & Hk & Hb & _). eapply derivable_continuous_lim, (F_deriv k); [assumption|assumption|lra].
  Qed.
  Lemma F_onto y : exists x, F x = y.
  Proof.
    pose proof (X_mono O n ltac:(lia)) as X0n.
    destruct (Rlt_le_dec y (Y O)) as [H1|H1].
    { exists (X O + (y - Y O) / sl). rewrite HFlo.
      - field. lra.
      - assert (0 < (Y O - y) / sl) by (apply Rdiv_lt_0_compat; lra). replace ((y - Y O) / sl) with (- ((Y O - y) / sl)) by (field; lra). lra. }
    destruct (Rlt_le_dec (Y n) y) as [H2|H2].
    { exists (X n + (y - Y n) / sl). rewrite HFhi.
      - field. lra.
      - assert (0 < (y - Y n) / sl) by (apply Rdiv_lt_0_compat; lra). lra. }
    destruct (Req_EM_T y (Y O)) as [->|N1]; [exists (X O); apply F_knot; lia|].
    destruct (Req_EM_T y (Y n)) as [->|N2]; [exists (X n); apply F_knot; lia|].
    assert (X0n' : X O < X n).
    { pose proof (HX O Hn). pose proof (X_mono 1 n ltac:(lia)). lra. }
    destruct (IVT (fun u => F u - y) (X O) (X n)) as (z & Hz & Ez).
    - intros u. apply (continuity_pt_minus F (fun _ => y)); [apply F_cont|apply continuity_pt_const; intros ? ?; reflexivity].
    - assumption.
    - rewrite (F_knot O) by lia. lra.
    - rewrite (F_knot n) by lia. lra.
    - exists z. lra.
  Qed.
End Piece.
