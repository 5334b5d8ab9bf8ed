(** Lemmas: the knots of the spline, bin search, and what the spline computes in each bin. *)
From Verif Require Import Base BaseFacts RBase RFacts M_Logit M_Mono M_Spline S_Spline P_Logit P_Mono1 P_Mono2 P_Mono8 P_Scale1 P_Spline1 P_Spline2.
Local Open Scope R_scope.

(** ** Softmax and knots *)
Definition smx (u : list R) (i : nat) : R := exp (nth i u 0) / rsum (map exp u).
Lemma rsum_exp_pos u : u <> [] -> 0 < rsum (map exp u).
Proof.
  intros H. rewrite rsum_nth, map_length. apply sumn_pos; [destruct u; [congruence|cbn; lia]|].
  intros k Hk. rewrite (nth_map_lt exp u k) by assumption. apply exp_pos.
Qed.
Lemma smx_pos u i : u <> [] -> 0 < smx u i.
Proof. intros H. apply Rdiv_lt_0_compat; [apply exp_pos|apply rsum_exp_pos; assumption]. Qed.
Lemma smx_sum u : u <> [] -> sumn (length u) (smx u) = 1.
Proof.
  intros H. unfold smx. rewrite sumn_div. rewrite (rsum_nth (map exp u)), map_length.
  rewrite (sumn_ext _ (fun k => nth k (map exp u) 0) (fun k => exp (nth k u 0))).
  - apply Rinv_r. apply Rgt_not_eq. apply sumn_pos; [destruct u; [congruence|cbn; lia]|intros; apply exp_pos].
  - intros k Hk. apply nth_map_lt; assumption.
Qed.
Definition psize (n : nat) (u : list R) (mn : R) (i : nat) : R := mn + (1 - mn * INR n) * smx u i.
Definition knot (n : nat) (u : list R) (lo hi mn : R) (k : nat) : R := (hi - lo) * sumn k (psize n u mn) + lo.

Section Knots.
  Variables (n : nat) (u : list R) (lo hi mn : R).
  Hypothesis Hn : (0 < n)%nat.
  Hypothesis Hu : length u = n.
  Hypothesis Hmn : 0 <= mn.
  Hypothesis Hmn1 : mn * INR n <= 1.

  Lemma u_nonempty : u <> [].
  Proof. destruct u; [cbn in Hu; lia|discriminate]. Qed.
  Lemma psize_ge i : mn <= psize n u mn i.
  Proof. unfold psize. pose proof (smx_pos u i u_nonempty). assert (0 <= (1 - mn * INR n) * smx u i) by (apply Rmult_le_pos; lra). lra. Qed.
  Lemma psize_pos i : 0 < psize n u mn i.
  Proof.
    destruct (Rle_lt_or_eq_dec 0 mn Hmn) as [H|H]; [pose proof (psize_ge i); lra|].
    unfold psize. rewrite <- H. pose proof (smx_pos u i u_nonempty). lra.
  Qed.
  Lemma psize_sum : sumn n (psize n u mn) = 1.
  Proof.
    unfold psize. rewrite sumn_plus, sumn_const, sumn_scal. rewrite <- Hu at 3. rewrite smx_sum by apply u_nonempty. ring.
  Qed.
  Lemma knot_0 : knot n u lo hi mn 0 = lo.
  Proof. unfold knot. cbn [sumn]. ring. Qed.
  Lemma knot_n : knot n u lo hi mn n = hi.
  Proof. unfold knot. rewrite psize_sum. ring. Qed.
  Lemma knot_step k : knot n u lo hi mn (S k) - knot n u lo hi mn k = (hi - lo) * psize n u mn k.
  Proof. unfold knot. cbn [sumn]. ring. Qed.
  Lemma knot_lt k : lo < hi -> knot n u lo hi mn k < knot n u lo hi mn (S k).
  Proof. intros H. pose proof (knot_step k). pose proof (psize_pos k). assert (0 < (hi - lo) * psize n u mn k) by (apply Rmult_lt_0_compat; lra). lra. Qed.

  Definition params := map (fun p => mn + (1 - mn * INR n) * p) (rsoftmax u).
  Lemma params_length : length params = n.
  Proof. unfold params, rsoftmax. rewrite !map_length. assumption. Qed.
  Lemma nth_params i : (i < n)%nat -> nth i params 0 = psize n u mn i.
  Proof.
    intros H. unfold params, rsoftmax, psize, smx. rewrite map_map.
    rewrite (nth_map_lt (fun x => mn + (1 - mn * INR n) * (exp x / rsum (map exp u))) u i) by (rewrite Hu; assumption). reflexivity.
  Qed.
  Definition cumk := fst (cum_params n u lo hi mn).
  Lemma cumk_length : length cumk = S n.
  Proof. unfold cumk, cum_params. cbn [fst]. rewrite map_length. cbn [length]. rewrite rcumsum_length. f_equal. apply params_length. Qed.
  Lemma nth_cumk k : (k <= n)%nat -> nth k cumk 0 = knot n u lo hi mn k.
  Proof.
    intros H. unfold cumk, cum_params. cbn [fst]. fold params.
    rewrite (nth_map_lt (fun c => (hi - lo) * c + lo) _ k) by (cbn [length]; rewrite rcumsum_length, params_length; lia).
    unfold knot. f_equal. f_equal. destruct k as [|k]; [reflexivity|]. cbn [nth].
    rewrite (nth_error_nth (rcumsum params) k 0 (nth_error_rcumsum params k ltac:(rewrite params_length; lia))).
    apply sumn_ext. intros i Hi. apply nth_params. lia.
  Qed.
  Lemma sizes_length : length (snd (cum_params n u lo hi mn)) = n.
  Proof.
    unfold cum_params. cbn [snd map tl]. rewrite zip_with_length. cbn [length]. rewrite map_length, rcumsum_length.
    fold params. rewrite params_length. lia.
  Qed.
  Lemma nth_sizes k : (k < n)%nat -> nth k (snd (cum_params n u lo hi mn)) 0 = knot n u lo hi mn (S k) - knot n u lo hi mn k.
  Proof.
    intros H. pose proof cumk_length as L.
    assert (E : snd (cum_params n u lo hi mn) = zip_with Rminus (tl cumk) cumk) by reflexivity. rewrite E.
    rewrite (nth_zip_with Rminus _ _ k 0 0 0) by (destruct cumk; cbn in *; lia).
    rewrite <- (nth_cumk (S k)), <- (nth_cumk k) by lia. destruct cumk; [cbn in L; lia|]. reflexivity.
  Qed.
End Knots.

(** ** Bin search *)
Lemma ctrue_leb k m : ctrue (map (fun i => Nat.leb i k) (seq 0 m)) = Nat.min m (S k).
Proof.
  induction m as [|m IH]; [reflexivity|]. rewrite seq_S, map_app, ctrue_app, IH. cbn [map Nat.add]. rewrite ctrue_cons.
  change (ctrue []) with O. destruct (Nat.leb_spec m k); lia.
Qed.
Lemma list_as_map (l : list R) (f : R -> bool) : map f l = map (fun i => f (nth i l 0)) (seq 0 (length l)).
Proof.
  induction l as [|a l IH]; [reflexivity|]. cbn [map length seq nth]. f_equal. rewrite IH. rewrite <- seq_shift, map_map. reflexivity.
Qed.
Section Search.
  Variables (n : nat) (X : nat -> R) (l : list R).
  Hypothesis Hn : (0 < n)%nat.
  Hypothesis HX : forall k, (k < n)%nat -> X k < X (S k).
  Hypothesis Hl : length l = S n.
  Hypothesis Hnth : forall k, (k <= n)%nat -> nth k l 0 = X k.
  Lemma bin_index_eq k x : (k < n)%nat -> X k <= x <= X (S k) -> x < X (S k) \/ S k = n -> bin_index n (bump_last l) x = k.
  Proof.
    intros Hk Hx He. unfold bin_index, bump_last. rewrite list_as_map, upd_length, Hl.
    rewrite (map_ext_in _ (fun i => Nat.leb i k)).
    - rewrite ctrue_leb. lia.
    - intros i Hi. apply in_seq in Hi. rewrite nth_upd by lia. replace (S n - 1)%nat with n by lia.
      destruct (Nat.eqb_spec i n) as [->|Ne].
      + rewrite Hnth by lia. pose proof (X_mono n X Hn HX (S k) n ltac:(lia)).
        assert (x < X n + 1 / 1000000) by lra. rewrite (proj2 (Nat.leb_gt _ _)) by lia.
        unfold rleb. destruct (Rle_dec _ _); [lra|reflexivity].
      + rewrite Hnth by lia. destruct (Nat.leb_spec i k).
        * pose proof (X_mono n X Hn HX i k ltac:(lia)). unfold rleb. destruct (Rle_dec _ _); [reflexivity|lra].
        * destruct He as [He|He]; [|lia]. pose proof (X_mono n X Hn HX (S k) i ltac:(lia)). unfold rleb. destruct (Rle_dec _ _); [lra|reflexivity].
  Qed.
End Search.

(** ** The spline in one bin *)
Lemma boundary_derivative mn : 0 <= mn < 1 -> mn + softplus (ln (exp (1 - mn) - 1)) = 1.
Proof.
  intros H. unfold softplus.
  pose proof (exp_increasing 0 (1 - mn) ltac:(lra)) as E. rewrite exp_0 in E.
  rewrite exp_ln by lra. replace (1 + (exp (1 - mn) - 1)) with (exp (1 - mn)) by ring. rewrite ln_exp. ring.
Qed.

Section Spline.
  Variable m : rqs.
  Hypothesis W : rqs_wf m.
  Let n := rq_bins m.
  Definition kx := knot (rq_bins m) (rq_w m) (rq_lo m) (rq_hi m) (rq_min_w m).
  Definition ky := knot (rq_bins m) (rq_h m) (rq_lo_out m) (rq_hi_out m) (rq_min_h m).
  Definition kd (k : nat) : R := nth k (map (fun d => rq_min_d m + softplus d) (pad_derivatives (rq_min_d m) (rq_d m))) 0.
  Lemma derivs_length : length (map (fun d => rq_min_d m + softplus d) (pad_derivatives (rq_min_d m) (rq_d m))) = S (rq_bins m).
  Proof. destruct W. rewrite map_length. unfold pad_derivatives. cbn [length]. rewrite app_length. cbn [length]. lia. Qed.
  Lemma kd_pos k : (k <= n)%nat -> 0 < kd k.
  Proof.
    intros H. unfold kd. pose proof derivs_length as L. rewrite map_length in L.
    rewrite (nth_map_lt (fun d => rq_min_d m + softplus d) _ k) by (unfold n in *; lia).
    pose proof (softplus_pos (nth k (pad_derivatives (rq_min_d m) (rq_d m)) 0)). destruct W. lra.
  Qed.
  Lemma kd_0 : kd 0 = 1.
  Proof. unfold kd, pad_derivatives. cbn [map nth]. apply boundary_derivative. apply W. Qed.
  Lemma kd_n : kd n = 1.
  Proof.
    unfold kd, pad_derivatives, n. rewrite (nth_map_lt _ _ _).
    - destruct W as [Hb _ _ Hd _ _ _ _ Hm _]. destruct (rq_bins m) as [|b]; [lia|]. cbn [nth].
      rewrite app_nth2 by lia. replace (b - length (rq_d m))%nat with O by lia. cbn [nth]. apply boundary_derivative. assumption.
    - cbn [length]. rewrite app_length. cbn [length]. destruct W. lia.
  Qed.
  Lemma n_pos : (0 < n)%nat. Proof. apply W. Qed.
  Lemma kx_lt k : (k < n)%nat -> kx k < kx (S k).
  Proof. intros _. destruct W. apply knot_lt; tauto. Qed.
  Lemma ky_lt k : (k < n)%nat -> ky k < ky (S k).
  Proof. intros _. destruct W. apply knot_lt; tauto. Qed.
  Lemma kx_0 : kx 0 = rq_lo m. Proof. apply knot_0. Qed.
  Lemma ky_0 : ky 0 = rq_lo_out m. Proof. apply knot_0. Qed.
  Lemma kx_n : kx n = rq_hi m. Proof. destruct W. apply knot_n; tauto. Qed.
  Lemma ky_n : ky n = rq_hi_out m. Proof. destruct W. apply knot_n; tauto. Qed.

  Lemma size_check : (if Rlt_dec 1 (rq_min_w m * INR (rq_bins m)) then true else if Rlt_dec 1 (rq_min_h m * INR (rq_bins m)) then true else false) = false.
  Proof. destruct W. destruct (Rlt_dec 1 _); [lra|]. destruct (Rlt_dec 1 _); [lra|reflexivity]. Qed.

  Definition lval k x := ln (ss kx ky k ^ 2 * (kd (S k) * tt_ kx k x ^ 2 + 2 * ss kx ky k * (tt_ kx k x * (1 - tt_ kx k x)) + kd k * (1 - tt_ kx k x) ^ 2))
    - 2 * ln (bd (ss kx ky k) (kd k) (kd (S k)) (tt_ kx k x)).
  Lemma lval_slope k x : (k < n)%nat -> kx k <= x <= kx (S k) -> exp (lval k x) = pslope kx ky kd k x.
  Proof.
    intros Hk Hx. unfold lval, pslope.
    pose proof (ss_pos n kx ky kx_lt ky_lt k Hk) as S1.
    pose proof (tt_bounds n kx kx_lt k x Hk Hx) as T.
    pose proof (bd_pos (ss kx ky k) (kd k) (kd (S k)) S1 (kd_pos k ltac:(lia)) (kd_pos (S k) ltac:(lia)) (tt_ kx k x) T) as B.
    pose proof (pslope_pos n kx ky kd n_pos kx_lt ky_lt kd_pos k x Hk Hx) as P. unfold pslope in P.
    set (N := ss kx ky k ^ 2 * _) in *. set (D := bd _ _ _ _) in *.
    assert (HN : 0 < N).
    { replace N with (N / D ^ 2 * D ^ 2) by (field; lra). apply Rmult_lt_0_compat; [assumption|apply pow_lt; assumption]. }
    unfold Rminus. rewrite exp_plus, exp_Ropp, exp_ln by assumption.
    replace (2 * ln D) with (ln D + ln D) by ring. rewrite exp_plus, exp_ln by assumption. field. lra.
  Qed.

  Lemma cum_eq u lo hi mn : cum_params (rq_bins m) u lo hi mn = (cumk (rq_bins m) u lo hi mn, snd (cum_params (rq_bins m) u lo hi mn)).
  Proof. unfold cumk. destruct (cum_params _ _ _ _ _). reflexivity. Qed.
  Lemma inside_k k (inverse : bool) x : (k < n)%nat ->
    (if inverse then ky k <= x <= ky (S k) /\ (x < ky (S k) \/ S k = n) else kx k <= x <= kx (S k) /\ (x < kx (S k) \/ S k = n)) ->
    rq_inside m inverse x =
    let s := ss kx ky k in let h := hh ky k in let d0 := kd k in let d1 := kd (S k) in
    if inverse then
      let a := (x - ky k) * (d0 + d1 - 2 * s) + h * (s - d0) in
      let b := h * d0 - (x - ky k) * (d0 + d1 - 2 * s) in
      let c := - s * (x - ky k) in
      let root := 2 * c / (- b - sqrt (b ^ 2 - 4 * a * c)) in
      Ok (root * ww kx k + kx k, - (ln (s ^ 2 * (d1 * root ^ 2 + 2 * s * (root * (1 - root)) + d0 * (1 - root) ^ 2)) - 2 * ln (bd s d0 d1 root)))
    else Ok (piece kx ky kd k x, lval k x).
  Proof.
    intros Hk Hx. unfold rq_inside. rewrite size_check.
    rewrite (cum_eq (rq_w m)), (cum_eq (rq_h m)). cbv iota beta zeta.
    set (wl := cumk (rq_bins m) (rq_w m) (rq_lo m) (rq_hi m) (rq_min_w m)). set (hl := cumk (rq_bins m) (rq_h m) (rq_lo_out m) (rq_hi_out m) (rq_min_h m)).
    assert (Wl : length wl = S n) by (destruct W; apply cumk_length; assumption).
    assert (Hl : length hl = S n) by (destruct W; apply cumk_length; assumption).
    assert (Wn : forall j, (j <= n)%nat -> nth j wl 0 = kx j) by (intros; destruct W; apply nth_cumk; assumption).
    assert (Hn : forall j, (j <= n)%nat -> nth j hl 0 = ky j) by (intros; destruct W; apply nth_cumk; assumption).
    assert (B0 : (0 < n)%nat) by apply W.
    assert (EK : bin_index (length (rq_w m)) (bump_last (if inverse then hl else wl)) x = k).
    { rewrite (wf_w _ W). destruct inverse; destruct Hx as [Hx He].
      - apply (bin_index_eq n ky hl B0 ky_lt Hl Hn); assumption.
      - apply (bin_index_eq n kx wl B0 kx_lt Wl Wn); assumption. }
    rewrite EK. rewrite Wn, Hn by lia.
    assert (SW : nth k (snd (cum_params (rq_bins m) (rq_w m) (rq_lo m) (rq_hi m) (rq_min_w m))) 0 = ww kx k) by (destruct W; apply nth_sizes; assumption).
    assert (SH : nth k (snd (cum_params (rq_bins m) (rq_h m) (rq_lo_out m) (rq_hi_out m) (rq_min_h m))) 0 = hh ky k) by (destruct W; apply nth_sizes; assumption).
    rewrite (nth_zip_with Rdiv _ _ k 0 0 0) by (destruct W; rewrite sizes_length; assumption). rewrite SW, SH.
    fold (ss kx ky k). fold (kd k).
    assert (D1 : nth k (tl (map (fun d => rq_min_d m + softplus d) (pad_derivatives (rq_min_d m) (rq_d m)))) 0 = kd (S k)) by reflexivity.
    rewrite D1. destruct inverse; [reflexivity|].
    unfold piece, lval, bphi, bn. fold (tt_ kx k x). f_equal. 
  Qed.

  Lemma forward_inside k x : (k < n)%nat -> kx k <= x <= kx (S k) -> x < kx (S k) \/ S k = n ->
    rq_transform m false x = Ok (piece kx ky kd k x, lval k x).
  Proof.
    intros Hk Hx He. unfold rq_transform. cbv iota zeta.
    pose proof (X_mono n kx n_pos kx_lt 0 k ltac:(lia)) as M0. pose proof (X_mono n kx n_pos kx_lt (S k) n ltac:(lia)) as M1.
    rewrite kx_0 in M0. rewrite kx_n in M1.
    destruct (Rlt_dec (rq_hi m) x); [lra|]. destruct (Rlt_dec x (rq_lo m)); [lra|].
    exact (inside_k k false x Hk (conj Hx He)).
  Qed.
  Lemma inverse_inside k x : (k < n)%nat -> kx k <= x <= kx (S k) -> x < kx (S k) \/ S k = n ->
    rq_transform m true (piece kx ky kd k x) = Ok (x, - lval k x).
  Proof.
    intros Hk Hx He.
    assert (HB : ky k <= piece kx ky kd k x <= ky (S k)).
    { split.
      - destruct (Req_EM_T x (kx k)) as [->|]; [rewrite (piece_lo n) by (auto using kx_lt, ky_lt); lra|].
        rewrite <- (piece_lo n kx ky kd kx_lt ky_lt k Hk). left. apply (piece_incr n); auto using kx_lt, ky_lt, kd_pos, n_pos; lra.
      - destruct (Req_EM_T x (kx (S k))) as [->|]; [rewrite (piece_hi n) by (auto using kx_lt, ky_lt); lra|].
        rewrite <- (piece_hi n kx ky kd kx_lt ky_lt k Hk). left. apply (piece_incr n); auto using kx_lt, ky_lt, kd_pos, n_pos; lra. }
    assert (HE : piece kx ky kd k x < ky (S k) \/ S k = n).
    { destruct He as [He|He]; [left|right; assumption].
      rewrite <- (piece_hi n kx ky kd kx_lt ky_lt k Hk). apply (piece_incr n); auto using kx_lt, ky_lt, kd_pos, n_pos; lra. }
    unfold rq_transform. cbv iota zeta.
    pose proof (X_mono n ky n_pos ky_lt 0 k ltac:(lia)) as M0. pose proof (X_mono n ky n_pos ky_lt (S k) n ltac:(lia)) as M1.
    rewrite ky_0 in M0. rewrite ky_n in M1.
    destruct (Rlt_dec (rq_hi_out m) _); [lra|]. destruct (Rlt_dec _ (rq_lo_out m)); [lra|].
    rewrite (inside_k k true _ Hk (conj HB HE)). cbv zeta iota.
    pose proof (tt_bounds n kx kx_lt k x Hk Hx) as T.
    pose proof (root_eq (ss kx ky k) (kd k) (kd (S k)) (hh ky k) (ss_pos n kx ky kx_lt ky_lt k Hk) (kd_pos k ltac:(lia)) (kd_pos (S k) ltac:(lia)) (hh_pos n ky ky_lt k Hk) (tt_ kx k x) T) as R.
    cbv zeta in R.
    replace (piece kx ky kd k x - ky k) with (bphi (ss kx ky k) (kd k) (kd (S k)) (hh ky k) (tt_ kx k x)) by (unfold piece; ring).
    rewrite R. f_equal. f_equal.
    - unfold tt_. pose proof (ww_pos n kx kx_lt k Hk). field. lra.
  Qed.

  Definition Fv (x : R) : R := match rq_transform m false x with Ok (y, _) => y | Err _ => 0 end.
  Definition Lv (x : R) : R := match rq_transform m false x with Ok (_, l) => l | Err _ => 0 end.
  Lemma forward_lo x : x < rq_lo m -> rq_transform m false x = Ok (rq_lo_out m + (x - rq_lo m) * rq_slope m, 0).
  Proof. intros H. unfold rq_transform. cbv iota zeta. destruct W. destruct (Rlt_dec _ _); [lra|]. destruct (Rlt_dec _ _); [reflexivity|lra]. Qed.
  Lemma forward_hi x : rq_hi m < x -> rq_transform m false x = Ok (rq_hi_out m + (x - rq_hi m) * rq_slope m, 0).
  Proof. intros H. unfold rq_transform. cbv iota zeta. destruct (Rlt_dec _ _); [reflexivity|lra]. Qed.
  Lemma Fv_bin k x : (k < n)%nat -> kx k <= x <= kx (S k) -> Fv x = piece kx ky kd k x.
  Proof.
    intros Hk Hx. destruct (Rlt_le_dec x (kx (S k))) as [Hlt|Hge].
    - unfold Fv. rewrite (forward_inside k) by auto. reflexivity.
    - assert (x = kx (S k)) by lra. subst x. destruct (Nat.eq_dec (S k) n) as [E|E].
      + unfold Fv. rewrite (forward_inside k) by auto. reflexivity.
      + pose proof (kx_lt (S k) ltac:(lia)). unfold Fv. rewrite (forward_inside (S k)) by (try lia; lra).
        rewrite (piece_lo n), (piece_hi n) by (try lia; auto using kx_lt, ky_lt). reflexivity.
  Qed.
  Lemma Fv_lo x : x <= kx 0 -> Fv x = ky 0 + (x - kx 0) * rq_slope m.
  Proof.
    intros H. destruct (Req_EM_T x (kx 0)) as [->|].
    - rewrite (Fv_bin 0) by (try apply n_pos; pose proof (kx_lt 0 n_pos); lra). rewrite (piece_lo n) by (auto using kx_lt, ky_lt, n_pos). ring.
    - unfold Fv. rewrite ky_0, kx_0 in *. rewrite forward_lo by lra. reflexivity.
  Qed.
  Lemma Fv_hi x : kx n <= x -> Fv x = ky n + (x - kx n) * rq_slope m.
  Proof.
    intros H. destruct (Req_EM_T x (kx n)) as [->|].
    - pose proof n_pos. destruct (Nat.lt_exists_pred 0 n n_pos) as (j & Ej & _). rewrite Ej at 1.
      rewrite (Fv_bin j) by (try lia; pose proof (kx_lt j ltac:(lia)); lra). rewrite (piece_hi n) by (try lia; auto using kx_lt, ky_lt). rewrite <- Ej. ring.
    - unfold Fv. rewrite ky_n, kx_n in *. rewrite forward_hi by lra. reflexivity.
  Qed.
  Lemma forward_total x : rq_transform m false x = Ok (Fv x, Lv x).
  Proof.
    assert (exists y l, rq_transform m false x = Ok (y, l)) as (y & l & E).
    { destruct (Rlt_le_dec x (rq_lo m)); [eexists _, _; apply forward_lo; assumption|].
      destruct (Rlt_le_dec (rq_hi m) x); [eexists _, _; apply forward_hi; assumption|].
      destruct (locate n kx n_pos x) as (k & Hk & Hb & He); [rewrite kx_0, kx_n; lra|].
      eexists _, _. apply (forward_inside k); assumption. }
    unfold Fv, Lv. rewrite E. reflexivity.
  Qed.
  Lemma inverse_of_forward x : rq_transform m true (Fv x) = Ok (x, - Lv x).
  Proof.
    destruct (Rlt_le_dec x (rq_lo m)) as [H|H].
    { unfold Lv, Fv. rewrite forward_lo by assumption. unfold rq_transform. cbv iota zeta.
      destruct W as [_ _ _ _ Win Wout _ _ _ Ws].
      assert (P : 0 < (rq_lo m - x) * rq_slope m) by (apply Rmult_lt_0_compat; lra).
      destruct (Rlt_dec _ _); [lra|]. destruct (Rlt_dec _ _); [|lra]. f_equal. f_equal; [field; lra|ring]. }
    destruct (Rlt_le_dec (rq_hi m) x) as [H'|H'].
    { unfold Lv, Fv. rewrite forward_hi by assumption. unfold rq_transform. cbv iota zeta.
      destruct W as [_ _ _ _ Win Wout _ _ _ Ws].
      assert (P : 0 < (x - rq_hi m) * rq_slope m) by (apply Rmult_lt_0_compat; lra).
      destruct (Rlt_dec _ _); [|lra]. f_equal. f_equal; [field; lra|ring]. }
    destruct (locate n kx n_pos x) as (k & Hk & Hb & He); [rewrite kx_0, kx_n; lra|].
    unfold Lv. rewrite (Fv_bin k) by assumption. rewrite (forward_inside k) by assumption. apply inverse_inside; assumption.
  Qed.
  Lemma Fv_incr x y : x < y -> Fv x < Fv y.
  Proof. apply (F_incr n kx ky kd (rq_slope m) Fv n_pos kx_lt ky_lt kd_pos (wf_slope _ W) Fv_bin Fv_lo Fv_hi). Qed.
  Lemma Fv_cont x : continuity_pt Fv x.
  Proof. apply (F_cont n kx ky kd (rq_slope m) Fv n_pos kx_lt ky_lt kd_pos Fv_bin Fv_lo Fv_hi). Qed.
  Lemma Fv_onto y : exists x, Fv x = y.
  Proof. apply (F_onto n kx ky kd (rq_slope m) Fv n_pos kx_lt ky_lt kd_pos (wf_slope _ W) Fv_bin Fv_lo Fv_hi). Qed.
  Lemma Fv_deriv x : rq_lo m < x < rq_hi m -> derivable_pt_lim Fv x (exp (Lv x)).
  Proof.
    intros H. destruct (locate n kx n_pos x) as (k & Hk & Hb & He); [rewrite kx_0, kx_n; lra|].
    assert (E : exp (Lv x) = pslope kx ky kd k x).
    { unfold Lv. rewrite (forward_inside k) by assumption. apply lval_slope; assumption. }
    rewrite E. apply (F_deriv n kx ky kd Fv n_pos kx_lt ky_lt kd_pos Fv_bin k x Hk Hb).
    rewrite kx_0, kx_n. assumption.
  Qed.
  Lemma Fv_deriv_out x : x < rq_lo m \/ rq_hi m < x -> derivable_pt_lim Fv x (rq_slope m).
  Proof.
    intros H. apply (F_deriv_outside n kx ky (rq_slope m) Fv Fv_lo Fv_hi). rewrite kx_0, kx_n. assumption.
  Qed.
  Lemma Lv_ends x : x = rq_lo m \/ x = rq_hi m -> Lv x = 0.
  Proof.
    intros H. pose proof n_pos as Hn. assert (exp (Lv x) = 1).
    { destruct H as [->| ->].
      - rewrite <- kx_0. unfold Lv. rewrite (forward_inside 0) by (try apply n_pos; pose proof (kx_lt 0 n_pos); lra).
        rewrite lval_slope by (try apply n_pos; pose proof (kx_lt 0 n_pos); lra).
        rewrite (pslope_lo n) by (auto using kx_lt, ky_lt). apply kd_0.
      - destruct (Nat.lt_exists_pred 0 n n_pos) as (j & Ej & _). rewrite <- kx_n, Ej. pose proof (kx_lt j ltac:(lia)).
        unfold Lv. rewrite (forward_inside j) by (try lia; lra). rewrite lval_slope by (try lia; lra).
        rewrite (pslope_hi n) by (try lia; auto using kx_lt, ky_lt). rewrite <- Ej. apply kd_n. }
    apply exp_inv. rewrite exp_0. assumption.
  Qed.
  Lemma Fv_deriv_ends x : rq_slope m = 1 -> x = rq_lo m \/ x = rq_hi m -> derivable_pt_lim Fv x 1.
  Proof.
    intros Hs H. rewrite <- Hs. apply (F_deriv_ends n kx ky kd (rq_slope m) Fv n_pos kx_lt ky_lt kd_pos Fv_bin Fv_lo Fv_hi).
    rewrite kx_0, kx_n, kd_0, kd_n. tauto.
  Qed.
  Lemma Lv_out x : x < rq_lo m \/ rq_hi m < x -> Lv x = 0.
  Proof. intros [H|H]; unfold Lv; [rewrite forward_lo|rewrite forward_hi]; auto. Qed.
End Spline.

(** ** Inverse functions *)
Lemma inverse_derivative F G x l : (forall a b, a < b -> F a < F b) -> (forall a, G (F a) = a) -> (forall b, F (G b) = b) ->
  derivable_pt_lim F x l -> 0 < l -> derivable_pt_lim G (F x) (/ l).
Proof.
  intros HI HGF HFG HD Hl eps He.
  assert (HIle : forall a b, F a < F b -> a < b).
  { intros a b H. destruct (Rtotal_order a b) as [|[->|H']]; [assumption|lra|]. pose proof (HI _ _ H'). lra. }
  (* a difference quotient close to l has its inverse close to /l *)
  set (e' := Rmin (l / 2) (eps * l * l / 2)).
  assert (He' : 0 < e') by (unfold e'; apply Rmin_pos; [lra|]; apply Rmult_lt_0_compat; [|lra]; repeat apply Rmult_lt_0_compat; assumption).
  destruct (HD e' He') as (del & Hdel).
  set (dl := pos del / 2). assert (Hdl : 0 < dl) by (unfold dl; pose proof (cond_pos del); lra).
  pose proof (HI (x - dl) x ltac:(lra)) as A1. pose proof (HI x (x + dl) ltac:(lra)) as A2.
  assert (Hp : 0 < Rmin (F x - F (x - dl)) (F (x + dl) - F x)) by (apply Rmin_pos; lra).
  exists (mkposreal _ Hp). intros h Hh0 Hh. cbn [pos] in Hh. apply Rabs_def2 in Hh.
  pose proof (Rmin_l (F x - F (x - dl)) (F (x + dl) - F x)). pose proof (Rmin_r (F x - F (x - dl)) (F (x + dl) - F x)).
  set (k := G (F x + h) - x).
  assert (Ek : F (x + k) = F x + h) by (unfold k; replace (x + (G (F x + h) - x)) with (G (F x + h)) by ring; apply HFG).
  assert (K1 : x - dl < x + k) by (apply HIle; rewrite Ek; lra).
  assert (K2 : x + k < x + dl) by (apply HIle; rewrite Ek; lra).
  assert (K0 : k <> 0) by (intro E; rewrite E, Rplus_0_r in Ek; lra).
  assert (Kd : Rabs k < del) by (apply Rabs_def1; unfold dl in *; pose proof (cond_pos del); lra).
  specialize (Hdel k K0 Kd). rewrite Ek in Hdel. replace (F x + h - F x) with h in Hdel by ring.
  rewrite HGF. fold k.
  assert (Q : 0 < h / k).
  { apply Rabs_def2 in Hdel. pose proof (Rmin_l (l / 2) (eps * l * l / 2)). fold e' in H1. lra. }
  assert (Q2 : l / 2 < h / k).
  { apply Rabs_def2 in Hdel. pose proof (Rmin_l (l / 2) (eps * l * l / 2)). fold e' in H1. lra. }
  replace (k / h - / l) with (- ((h / k - l) / ((h / k) * l))) by (field; lra).
  rewrite Rabs_Ropp. unfold Rdiv at 1. rewrite Rabs_mult.
  assert (PP : 0 < h / k * l) by (apply Rmult_lt_0_compat; lra).
  rewrite (Rabs_right (/ _)) by (left; apply Rinv_0_lt_compat; assumption).
  apply (Rmult_lt_reg_r (h / k * l)); [assumption|]. rewrite Rmult_assoc, Rinv_l, Rmult_1_r by lra.
  pose proof (Rmin_r (l / 2) (eps * l * l / 2)) as E2. fold e' in E2.
  assert (eps * l * (l / 2) < eps * l * (h / k)) by (apply Rmult_lt_compat_l; [apply Rmult_lt_0_compat; lra|lra]).
  lra.
Qed.
