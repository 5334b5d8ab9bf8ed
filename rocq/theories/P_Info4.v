(** Graded response information; information on a transformed scale. *)
From Verif Require Import Base BaseFacts RBase RFacts M_Logit S_Logit P_Logit P_Logit2 P_Logit3 P_Logit4 M_Lik P_Lik3 P_Lik5 M_Est M_Stat S_Stat P_Spline4 M_Scale S_Scale P_Scale1 P_Scale2 P_Scale3 P_Scale4 P_Pop5 P_Pop6 M_Info S_Info P_Info1 P_Info2 P_Info3.
Import List.
Local Open Scope R_scope.

(** ** Graded response *)
Definition grm_z (m : poly) (t : list R) (i k : nat) : R := predictor (p_lv m) (slope (p_free m) (p_w m) i) t + intercept (p_cats m) (p_b m) i k.
Definition grm_g (m : poly) (t : list R) (i k : nat) : R := geq_probability (nth i (p_cats m) O) (grm_z m t i) k.
Definition grm_p (m : poly) (t : list R) (i k : nat) : R := grm_g m t i k - grm_g m t i (S k).
Definition grm_W (m : poly) (t : list R) (i k : nat) : R := grm_g m t i k * (1 - grm_g m t i k).
Definition grm_D (m : poly) (t : list R) (i k d : nat) : R := slope (p_free m) (p_w m) i d * (grm_W m t i k - grm_W m t i (S k)).
Lemma grm_reads m : poly_wf m -> reads (p_lv m) (length (p_cats m)) (p_max m) (fun thetas => some3 (grm_probabilities m thetas)) (grm_p m).
Proof.
  intros Hwf thetas r t i k HF Ht Hi Hk. pose proof (nth_error_nth_lt (p_cats m) i O Hi) as EK.
  rewrite some3_at3, (grm_probs_spec m thetas r t i _ k Hwf HF Ht EK Hk). reflexivity.
Qed.
Lemma grm_g_derivative m t i k d : length t = p_lv m -> (d < p_lv m)%nat ->
  derivable_pt_lim (fun x => grm_g m (upd d x t) i k) (nth d t 0) (slope (p_free m) (p_w m) i d * grm_W m t i k).
Proof.
  intros Lt Hd. unfold grm_W, grm_g, geq_probability. destruct (k =? 0)%nat; [replace (_ * (1 * (1 - 1))) with 0 by ring; apply derivable_pt_lim_const|].
  destruct (k <? nth i (p_cats m) O)%nat; [|replace (_ * (0 * (1 - 0))) with 0 by ring; apply derivable_pt_lim_const].
  apply (derivable_ext (fun x => logistic (grm_z m t i k + slope (p_free m) (p_w m) i d * (x - nth d t 0)))); [|apply logistic_affine_derivative].
  intro x. unfold grm_z. rewrite predictor_upd by auto. f_equal. ring.
Qed.
Lemma grm_partials m t : length t = p_lv m -> partials (p_lv m) (length (p_cats m)) (p_max m) (grm_p m) t (grm_D m t).
Proof.
  intros Lt i k d Hi Hk Hd. pose proof (derivable_pt_lim_minus _ _ _ _ _ (grm_g_derivative m t i k d Lt Hd) (grm_g_derivative m t i (S k) d Lt Hd)) as H.
  unfold grm_D. replace (_ * (_ - _)) with (slope (p_free m) (p_w m) i d * grm_W m t i k - slope (p_free m) (p_w m) i d * grm_W m t i (S k)) by ring. exact H.
Qed.
Lemma grm_supported m t : poly_wf m -> ordered m -> supported (p_lv m) (length (p_cats m)) (p_max m) (grm_p m) t (grm_D m t).
Proof.
  intros Hwf HO i k Hi Hk. destruct (cats_bounds (p_cats m) i (proj1 (proj2 Hwf)) Hi) as [H1 H2]. destruct (Nat.lt_ge_cases k (nth i (p_cats m) O)) as [Hc|Hc].
  - left. apply grm_diff_pos; [exact H1|exact Hc|]. intros. unfold grm_z. apply Rplus_lt_compat_l. now apply HO.
  - right. unfold grm_D, grm_p, grm_W, grm_g, geq_probability. cbn [Nat.eqb]. destruct (Nat.eqb_spec k 0); [lia|].
    destruct (Nat.ltb_spec k (nth i (p_cats m) O)); [lia|]. destruct (Nat.ltb_spec (S k) (nth i (p_cats m) O)); [lia|]. split; [ring|intros; ring].
Qed.
Lemma grm_fisher m t i d e : poly_wf m -> ordered m -> (i < length (p_cats m))%nat ->
  fisher (p_max m) (grm_p m t i) (grm_D m t i) d e =
  slope (p_free m) (p_w m) i d * slope (p_free m) (p_w m) i e * sumn (nth i (p_cats m) O) (fun k => (grm_W m t i k - grm_W m t i (S k)) ^ 2 / grm_p m t i k).
Proof.
  intros Hwf HO Hi. destruct (cats_bounds (p_cats m) i (proj1 (proj2 Hwf)) Hi) as [H1 H2]. fold (p_max m) in H2. unfold fisher.
  assert (Z : forall k, (nth i (p_cats m) O <= k < p_max m)%nat -> grm_p m t i k = 0) by (intros k Hk; apply grm_diff_padding; lia).
  rewrite (sumn_truncate (nth i (p_cats m) O) (p_max m)); [|exact H2|intros k Hk; rewrite (Z k Hk); destruct (Req_EM_T 0 0); [reflexivity|lra]].
  rewrite <- sumn_scal. apply sumn_ext. intros k Hk.
  assert (P : 0 < grm_p m t i k) by (apply grm_diff_pos; [exact H1|exact Hk|]; intros; unfold grm_z; apply Rplus_lt_compat_l; now apply HO).
  destruct (Req_EM_T (grm_p m t i k) 0); [lra|]. unfold grm_D. field. lra.
Qed.

(** ** Transformed scales *)
Lemma blocks_table {A} (x : A) M Q (l : list A) : (0 < M)%nat -> length l = (Q * M)%nat ->
  blocks M l = map (fun q => map (fun k => nth (q * M + k) l x) (seq 0 M)) (seq 0 Q).
Proof.
  intros HM HL. apply nth_error_ext. intro q. rewrite nth_error_blocks by exact HM. rewrite HL. destruct (Nat.ltb_spec (q * M) (Q * M)) as [H|H].
  - assert (Hq : (q < Q)%nat) by nia. rewrite nth_error_map, nth_error_seq by exact Hq. cbn [option_map Nat.add]. f_equal. apply nth_error_ext. intro k.
    destruct (Nat.lt_ge_cases k M) as [Hk|Hk].
    + rewrite nth_error_firstn_lt by exact Hk. rewrite nth_error_skipn_add. rewrite nth_error_map, nth_error_seq by exact Hk. cbn [option_map Nat.add].
      apply nth_error_nth_lt. rewrite HL. nia.
    + rewrite (proj2 (nth_error_None _ _)), (proj2 (nth_error_None _ _)); [reflexivity|rewrite map_length, seq_length; exact Hk|].
      rewrite firstn_length. lia.
  - symmetry. apply nth_error_None. rewrite map_length, seq_length. nia.
Qed.
(** Each rescaled row [v] solves J^T v = g. *)
Lemma rescale_rows n solve scales fs thetas m grads : (0 < n)%nat -> thetas <> [] -> solve_exact n solve -> Forall2 (acts_as n) scales fs -> Forall (fun t => length t = n) thetas ->
  derivatives_along n scales fs thetas ->
  (forall t J, In t thetas -> is_jacobian n n (compose_all fs) t J -> exists B, inverse_matrix n J B) ->
  length grads = (length thetas * m)%nat -> Forall (fun g => length g = n) grads ->
  exists out, rescale_gradients solve n scales grads thetas = Ok out /\ length out = length grads /\
    forall i t, nth_error thetas i = Some t -> exists J B, is_jacobian n n (compose_all fs) t J /\ inverse_matrix n J B /\
      forall j, (j < m)%nat -> length (nth (i * m + j) out []) = n /\ mvec (transpose J) (nth (i * m + j) out []) = nth (i * m + j) grads [].
Proof.
  intros Hn Hne Hsolve HA Hw HD Hinv Hlen Hgr.
  destruct (jacobian_chain n scales fs thetas Hn HA Hw HD) as (js & EJ & HJ).
  assert (LJ : length js = length thetas) by (symmetry; clear - HJ; induction HJ; cbn; auto).
  unfold rescale_gradients. rewrite EJ. cbn [bind]. rewrite map_length, LJ.
  assert (HN : (0 < length thetas)%nat) by (destruct thetas; [congruence|cbn; lia]).
  destruct (length thetas) as [|N'] eqn:EN; [lia|]. rewrite <- EN in *. clear EN N'.
  assert (ER : (length grads / length thetas = m)%nat) by (rewrite Hlen, Nat.mul_comm; apply Nat.div_mul; lia).
  rewrite ER. rewrite repeat_interleave_length, map_length, LJ, <- Hlen, Nat.eqb_refl.
  set (sys := repeat_interleave m (map transpose js)).
  assert (Lsys : length sys = length grads) by (unfold sys; rewrite repeat_interleave_length, map_length; lia).
  assert (X : forall p g, nth_error grads p = Some g -> exists v J B t, nth_error thetas (p / m) = Some t /\ nth_error js (p / m) = Some J /\ is_jacobian n n (compose_all fs) t J /\ inverse_matrix n J B /\
     nth_error sys p = Some (transpose J) /\ solve (transpose J) g = Ok (map (fun r => Some (Fin r)) v) /\ length v = n /\ mvec (transpose J) v = g).
  { intros p g Hp. assert (Hpl : (p < length grads)%nat) by (apply nth_error_Some; congruence).
    assert (Hm : (0 < m)%nat) by (destruct m; lia). set (i := (p / m)%nat). set (j := (p mod m)%nat).
    assert (Hp' : p = (i * m + j)%nat) by (unfold i, j; pose proof (Nat.div_mod p m); lia).
    assert (Hj : (j < m)%nat) by (apply Nat.mod_upper_bound; lia).
    assert (Hi : (i < length thetas)%nat) by (apply Nat.div_lt_upper_bound; lia).
    destruct (nth_error thetas i) as [t|] eqn:Et; [|apply nth_error_None in Et; lia].
    destruct (Forall2_nth_l _ _ _ i t HJ Et) as (J & EJi & HJi).
    assert (ES : nth_error sys p = Some (transpose J)).
    { unfold sys. rewrite Hp', nth_error_repeat_interleave by assumption. rewrite nth_error_map, EJi. reflexivity. }
    destruct (Hinv t J (nth_error_In _ _ Et) HJi) as (B & HB). pose proof (inverse_transpose n J B Hn HB) as HBt.
    assert (LG : length g = n) by (rewrite Forall_forall in Hgr; apply Hgr; eapply nth_error_In; eauto).
    destruct (Hsolve (transpose J) (transpose B) _ HBt LG) as (v & Ev & Lv & Hv). exists v, J, B, t. auto 10. }
  assert (EM : exists vs, mapM (fun '(a, b) => solve a b) (combine sys grads) = Ok (map (map (fun r => Some (Fin r))) vs) /\ length vs = length grads /\
    forall p g J, nth_error grads p = Some g -> nth_error sys p = Some (transpose J) -> nth_error js (p / m) = Some J -> exists v, nth_error vs p = Some v /\ length v = n /\ mvec (transpose J) v = g).
  { exists (map (fun p => match solve (nth p sys []) (nth p grads []) with Ok l => map clean_gradient l | Err _ => [] end) (seq 0 (length grads))).
    rewrite map_length, seq_length. split; [|split; [reflexivity|]].
    - rewrite map_map. rewrite <- (Nat.min_id (length grads)) at 1. rewrite <- Lsys at 1. rewrite <- combine_length. apply mapM_index. intros p [a g] Hp.
      assert (Hpl : (p < length grads)%nat) by (assert (H : nth_error (combine sys grads) p <> None) by congruence; apply nth_error_Some in H; rewrite combine_length in H; lia).
      pose proof (nth_error_nth_lt grads p [] Hpl) as EG. destruct (X p _ EG) as (v & J & B & t & _ & _ & _ & _ & ES & Ev & _).
      rewrite (nth_error_combine_some sys grads p _ _ ES EG) in Hp. injection Hp as <- <-. cbn [Nat.add]. rewrite (nth_error_nth _ _ [] ES), Ev, clean_finite. reflexivity.
    - intros p g J EG ES EJp. destruct (X p g EG) as (v & J' & B & t & _ & EJ' & _ & _ & ES' & Ev & Lv & Hv). assert (J' = J) by congruence. subst J'.
      assert (Hpl : (p < length grads)%nat) by (apply nth_error_Some; congruence).
      exists v. rewrite nth_error_map, nth_error_seq by exact Hpl. cbn [option_map Nat.add]. rewrite (nth_error_nth _ _ [] ES), (nth_error_nth _ _ [] EG), Ev, clean_finite. auto. }
  destruct EM as (vs & EM & Lvs & HV). rewrite EM. cbn [bind]. exists vs. split; [f_equal; rewrite map_map; rewrite <- (map_id vs) at 2; apply map_ext; intro; apply clean_finite|].
  split; [exact Lvs|]. intros i t Et. destruct (Forall2_nth_l _ _ _ i t HJ Et) as (J & EJi & HJi). destruct (Hinv t J (nth_error_In _ _ Et) HJi) as (B & HB).
  exists J, B. split; [exact HJi|]. split; [exact HB|]. intros j Hj.
  assert (Hi : (i < length thetas)%nat) by (apply nth_error_Some; congruence).
  assert (Hp : (i * m + j < length grads)%nat) by (rewrite Hlen; nia).
  assert (Ed : ((i * m + j) / m = i)%nat) by (symmetry; apply Nat.div_unique with j; lia).
  destruct (HV (i * m + j)%nat _ J (nth_error_nth_lt grads _ [] Hp)) as (v & Ev & Lv & Hv).
  - unfold sys. rewrite nth_error_repeat_interleave by assumption. rewrite nth_error_map, EJi. reflexivity.
  - now rewrite Ed.
  - rewrite (nth_error_nth _ _ [] Ev). auto.
Qed.
