(** The average importance weight is the marginal likelihood under a standard normal prior. *)
From Verif Require Import Base BaseFacts RBase RFacts M_Data M_Logit M_Lik S_Logit S_Lik M_Est S_Est P_Est5 S_Mass P_Mass S_Iw P_Iw1.
Local Open Scope R_scope.

Lemma antiderivative_at f Q a b x : antiderivative f Q a b -> a <= x <= b -> derivable_pt_lim Q x (f x).
Proof. intros [H _] Hx. destruct (H x Hx) as [pr E]. apply (derive_pt_eq_1 Q x (f x) pr). now symmetry. Qed.
Lemma area_ext f g a b v : (forall x, f x = g x) -> area f a b v -> area g a b v.
Proof.
  intros E (Q & HQ & Ev). exists Q. split; [|exact Ev]. apply antiderivative_of; [exact (proj2 HQ)|]. intros x Hx. rewrite <- E. now apply (antiderivative_at f Q a b).
Qed.
Lemma deriv_affine Q d mu s x : derivable_pt_lim Q (mu + s * x) d -> derivable_pt_lim (fun z => Q (mu + s * z)) x (s * d).
Proof.
  intro H. replace (s * d) with (d * s) by ring. apply (derivable_pt_lim_comp (fun z => mu + s * z) Q x s d); [|exact H].
  assert (E : derivable_pt_lim (fun z => mu + s * z) x (0 + s * 1)) by (apply (derivable_pt_lim_plus (fun _ => mu) (fun z => s * z)); [apply derivable_pt_lim_const|]; apply (derivable_pt_lim_scal id s x 1); apply derivable_pt_lim_id).
  now rewrite Rplus_0_l, Rmult_1_r in E.
Qed.
Lemma area_affine h mu s a b v : 0 < s -> area h (mu + s * a) (mu + s * b) v -> area (fun z => s * h (mu + s * z)) a b v.
Proof.
  intros Hs (Q & HQ & Ev). exists (fun z => Q (mu + s * z)). split; [|exact Ev]. pose proof (proj2 HQ) as Hab. assert (a <= b) by (apply Rmult_le_reg_l with s; lra).
  apply antiderivative_of; auto. intros x Hx. apply deriv_affine. apply (antiderivative_at h Q _ _ _ HQ). split; apply Rplus_le_compat_l; apply Rmult_le_compat_l; lra.
Qed.
Lemma mass_ext f g T : (forall x, f x = g x) -> total_mass f T -> total_mass g T.
Proof. intros E H eps He. destruct (H eps He) as (B & HB). exists B. intros a b Ha Hb. destruct (HB a b Ha Hb) as (v & Hv & Ee). exists v. split; [|exact Ee]. now apply (area_ext f g). Qed.
Lemma mass_affine h mu s T : 0 < s -> total_mass h T -> total_mass (fun z => s * h (mu + s * z)) T.
Proof.
  intros Hs H eps He. destruct (H eps He) as (B & HB). exists (Rmax ((B + mu) / s) ((B - mu) / s)). intros a b Ha Hb.
  pose proof (Rmax_l ((B + mu) / s) ((B - mu) / s)). pose proof (Rmax_r ((B + mu) / s) ((B - mu) / s)).
  assert (Ea : s * a < - (B + mu)). { apply Rlt_le_trans with (s * (- ((B + mu) / s))); [apply Rmult_lt_compat_l; lra|apply Req_le; field; lra]. }
  assert (Eb : B - mu < s * b). { apply Rle_lt_trans with (s * ((B - mu) / s)); [apply Req_le; field; lra|apply Rmult_lt_compat_l; lra]. }
  destruct (HB (mu + s * a) (mu + s * b)) as (v & Hv & Ee); [lra|lra|]. exists v. split; [now apply area_affine|exact Ee].
Qed.
Lemma mass_affine_iff h mu s T : 0 < s -> (total_mass (fun z => s * h (mu + s * z)) T <-> total_mass h T).
Proof.
  intro Hs. split; [|now apply mass_affine]. intro H. assert (Hi : 0 < / s) by now apply Rinv_0_lt_compat.
  apply (mass_affine _ (- mu / s) (/ s) T Hi) in H. apply (mass_ext _ h T) in H; [exact H|]. intro x. cbv beta.
  replace (mu + s * (- mu / s + / s * x)) with x by (field; lra). field. lra.
Qed.

Lemma normal_pdf_draw mu s z : 0 < s -> s * normal_pdf mu s (mu + z * s) = normal_pdf 0 1 z.
Proof.
  intro Hs. unfold normal_pdf. assert (Hp : 0 < sqrt (2 * PI)) by (apply sqrt_lt_R0; pose proof PI_RGT_0; lra).
  replace (- (mu + z * s - mu) ^ 2 / (2 * s ^ 2)) with (- (z - 0) ^ 2 / (2 * 1 ^ 2)) by (field; lra). field. lra.
Qed.
Lemma proposal_density mean logvar z : length mean = length z -> length logvar = length z ->
  diag_normal_pdf mean (map (fun v => exp (v / 2)) logvar) (draw mean logvar z) * rprod (map (fun v => exp (v / 2)) logvar) =
  diag_normal_pdf (map (fun _ => 0) z) (map (fun _ => 1) z) z.
Proof.
  unfold diag_normal_pdf, draw. revert logvar z. induction mean as [|a mean IH]; intros [|v logvar] [|x z] H1 H2; cbn [length] in *; try lia; [cbn; ring|].
  cbn [map combine zip_with rprod fst snd]. rewrite <- (IH logvar z) by lia. rewrite <- (normal_pdf_draw a (exp (v / 2)) x (exp_pos _)). ring.
Qed.
Lemma map_const_len (c : R) (l l' : list R) : length l = length l' -> map (fun _ => c) l = map (fun _ => c) l'.
Proof. revert l'. induction l as [|x l IH]; intros [|y l'] H; cbn [length] in H; try lia; [reflexivity|]. cbn [map]. f_equal. apply IH. lia. Qed.
Lemma weight_density p mean logvar z row : length mean = length z -> length logvar = length z ->
  importance_weight p 1 mean logvar (draw mean logvar z) row * diag_normal_pdf (map (fun _ => 0) z) (map (fun _ => 1) z) z =
  likelihood p (draw mean logvar z) row * diag_normal_pdf (map (fun _ => 0) z) (map (fun _ => 1) z) (draw mean logvar z) * rprod (map (fun v => exp (v / 2)) logvar).
Proof.
  intros H1 H2. rewrite <- (proposal_density mean logvar z H1 H2). pose proof (draw_length (length z) mean logvar z H1 H2 eq_refl) as L.
  destruct (log_ratio_pdf mean logvar (draw mean logvar z) ltac:(lia) ltac:(lia)) as (P1 & P2 & _). unfold importance_weight.
  rewrite Rpower_1 by (apply Rdiv_lt_0_compat; auto).
  rewrite <- !(map_const_len _ (draw mean logvar z) z L).
  field. lra.
Qed.
Lemma marginal p mu v row T :
  total_mass (fun z => importance_weight p 1 [mu] [v] (draw [mu] [v] [z]) row * normal_pdf 0 1 z) T <->
  total_mass (fun t => likelihood p [t] row * normal_pdf 0 1 t) T.
Proof.
  rewrite <- (mass_affine_iff (fun t => likelihood p [t] row * normal_pdf 0 1 t) mu (exp (v / 2)) T (exp_pos _)).
  assert (E : forall z, importance_weight p 1 [mu] [v] (draw [mu] [v] [z]) row * normal_pdf 0 1 z =
    exp (v / 2) * (likelihood p [mu + exp (v / 2) * z] row * normal_pdf 0 1 (mu + exp (v / 2) * z))).
  { intro z. pose proof (weight_density p [mu] [v] [z] row eq_refl eq_refl) as W. unfold draw, diag_normal_pdf in *. cbn [map combine zip_with rprod fst snd] in *.
    rewrite !Rmult_1_r in W. rewrite W. rewrite (Rmult_comm z). ring. }
  split; apply mass_ext; intro z; [apply E|symmetry; apply E].
Qed.

(** Averages over finitely many rows. *)
Lemma over_averaging lv rows : rows <> [] -> Forall (fun r => length r = lv) rows -> averaging lv (over rows).
Proof.
  intros Hr HF. assert (HN : 0 < INR (length rows)) by (apply lt_0_INR; destruct rows; [congruence|cbn; lia]). unfold over. split.
  - intros f g H. apply Rmult_le_compat_r; [left; now apply Rinv_0_lt_compat|]. clear - H HF. induction HF as [|r rows Hr HF IH]; cbn [map rsum]; [lra|]. specialize (H r Hr). lra.
  - intros f H. apply Rdiv_lt_0_compat; auto. destruct HF as [|r rows Hr' HF]; [congruence|]. cbn [map rsum]. pose proof (H r Hr'). enough (0 <= rsum (map f rows)) by lra.
    clear - H HF. induction HF as [|r rows Hr HF IH]; cbn [map rsum]; [lra|]. specialize (H r Hr). lra.
  - intros f g. replace (rsum (map (fun z => f z + g z) rows)) with (rsum (map f rows) + rsum (map g rows)); [field; lra|]. clear. induction rows as [|r rows IH]; cbn [map rsum]; [ring|]. rewrite <- IH. ring.
  - intros c f. replace (rsum (map (fun z => c * f z) rows)) with (c * rsum (map f rows)); [field; lra|]. clear. induction rows as [|r rows IH]; cbn [map rsum]; [ring|]. rewrite <- IH. ring.
  - replace (rsum (map (fun _ => 1) rows)) with (INR (length rows)); [field; lra|]. clear. induction rows as [|r rows IH]; [reflexivity|]. cbn [map rsum length]. rewrite S_INR, IH. ring.
Qed.
