(** The points of the grid of one variable between start and score. *)
From Coq Require Import Sorted.
From Verif Require Import Base BaseFacts RBase RFacts M_Est M_Stat M_Grid S_Grid P_Grid1 S_Mass P_Mass P_Iw3 S_Bit P_Bit1.
Local Open Scope R_scope.

Lemma steps_sorted (P : R -> R -> Prop) pts : StronglySorted Rlt pts ->
  (forall a b, In a pts -> In b pts -> a < b -> (forall y, In y pts -> ~ a < y < b) -> P a b) -> steps P pts.
Proof.
  induction pts as [|a pts IH]; intros HS H; [constructor|]. inversion HS as [|? ? HS2 HF]; subst. rewrite Forall_forall in HF. destruct pts as [|b pts]; [constructor|]. inversion HS2 as [|? ? HS3 HF3]; subst. rewrite Forall_forall in HF3.
  constructor.
  - apply H; [now left|right; now left|apply HF; now left|]. intros y [<- |[<- |Hy]] HY; [lra|lra|]. specialize (HF3 y Hy). lra.
  - apply IH; [exact HS2|]. intros c d Hc Hd Hcd HN. apply H; [now right|now right|exact Hcd|]. intros y [<- |Hy] HY; [|now apply (HN y Hy)]. specialize (HF c Hc). lra.
Qed.
Lemma last_in (l : list R) s : In (last l s) (s :: l).
Proof. revert s. induction l as [|b l IH]; intro s; [now left|]. destruct l as [|c l]; [right; now left|]. destruct (IH s) as [E|E]; [left; exact E|right; right; exact E]. Qed.
Lemma last_max s l y : StronglySorted Rlt (s :: l) -> In y (s :: l) -> y <= last l s.
Proof.
  revert s y. induction l as [|b l IH]; intros s y HS Hy; [destruct Hy as [<- |[]]; cbn; lra|]. inversion HS as [|? ? HS2 HF]; subst. pose proof (Forall_inv HF) as Hlt. cbn beta in Hlt.
  assert (E : last (b :: l) s = last l b). { clear. revert b. induction l as [|c l IH]; intro b; [reflexivity|]. cbn [last] in *. destruct l; [reflexivity|]. apply IH. }
  rewrite E. destruct Hy as [<- |Hy]; [|now apply IH]. apply Rle_trans with b; [lra|]. apply IH; [exact HS2|now left].
Qed.
Section POINTS.
Variables (gp : nat) (lo hi s x : R) (col pts : list R).
Hypotheses (HG : (2 <= gp)%nat) (H1 : lo <= s) (H2 : s <= x) (H3 : x <= hi) (HC : In x col) (HSo : StronglySorted Rlt pts)
  (HI : forall y, In y pts <-> y <= x /\ grid_value gp lo hi s col y).
Definition width : R := (hi - lo) / INR (gp - 1).
Lemma gp_pos : 0 < INR (gp - 1).
Proof. apply lt_0_INR. lia. Qed.
Lemma value_above y : grid_value gp lo hi s col y -> s <= y.
Proof. intros [-> |[(k & _ & ->)|(c & _ & ->)]]; [lra|apply Rmax_r|apply Rmax_r]. Qed.
Lemma point_range : Forall (fun y => s <= y <= x) pts.
Proof. apply Forall_forall. intros y Hy. apply HI in Hy. destruct Hy as [Hy Hv]. apply value_above in Hv. lra. Qed.
Lemma points_shape : exists l, pts = s :: l /\ last l s = x.
Proof using H2 HC HSo HI.
  clear H1 H3.
  assert (Is : In s pts) by (apply HI; split; [exact H2|now left]). assert (Ix : In x pts).
  { apply HI. split; [lra|]. right. right. exists x. split; [exact HC|]. symmetry. apply Rmax_left. exact H2. }
  pose proof point_range as HR. rewrite Forall_forall in HR. destruct pts as [|a l]; [destruct Is|]. assert (E : a = s).
  { inversion HSo as [|? ? _ HF]; subst. rewrite Forall_forall in HF. destruct Is as [<- |Is]; [reflexivity|]. specialize (HF s Is). specialize (HR a (or_introl eq_refl)). lra. }
  subst a. exists l. split; [reflexivity|]. apply Rle_antisym; [apply HR, last_in|]. now apply last_max.
Qed.
Lemma points_fine : steps (fun a b => b - a <= width) pts.
Proof.
  apply steps_sorted; [exact HSo|]. intros a b Ia Ib Hab HN. destruct (Rle_lt_dec (b - a) width) as [|HW]; [assumption|exfalso].
  pose proof point_range as HR. rewrite Forall_forall in HR. pose proof (HR a Ia) as Ra. pose proof (HR b Ib) as Rb. pose proof gp_pos as Gp.
  assert (Hw : 0 <= width) by (apply Rmult_le_pos; [lra|left; now apply Rinv_0_lt_compat]).
  destruct (Req_dec width 0) as [E0|E0].
  - unfold width in E0. assert (hi - lo = 0); [|lra]. replace (hi - lo) with ((hi - lo) / INR (gp - 1) * INR (gp - 1)) by (field; lra). rewrite E0. ring.
  - assert (Hwp : 0 < width) by lra. set (q := (a - lo) / width). assert (Hq : 0 <= q) by (apply Rmult_le_pos; [lra|left; now apply Rinv_0_lt_compat]).
    destruct (archimed q) as [A1 A2]. set (z := up q) in *. assert (Hz : (0 < z)%Z) by (apply lt_IZR; cbn; lra). set (k := Z.to_nat z). assert (Ek : INR k = IZR z) by (unfold k; rewrite INR_IZR_INZ, Z2Nat.id by lia; reflexivity).
    assert (Ea : a = lo + q * width) by (unfold q; field; lra).
    assert (Y1 : a < lo + INR k * width) by (rewrite Ek, Ea; apply Rplus_lt_compat_l, Rmult_lt_compat_r; lra).
    assert (Y2 : lo + INR k * width <= a + width). { rewrite Ek, Ea. replace (lo + q * width + width) with (lo + (q + 1) * width) by ring. apply Rplus_le_compat_l, Rmult_le_compat_r; lra. }
    set (y := lo + INR k * width) in *. assert (Kle : (k < gp)%nat).
    { apply INR_lt. assert (INR k * width < INR (gp - 1) * width). { unfold y in *. replace (INR (gp - 1) * width) with (hi - lo) by (unfold width; field; lra). lra. }
      apply Rmult_lt_reg_r in H; [|exact Hwp]. apply Rlt_le_trans with (INR (gp - 1)); [exact H|]. apply le_INR. lia. }
    apply (HN y); [|lra]. apply HI. split; [lra|]. right. left. exists k. split; [split; [apply INR_lt; rewrite Ek; cbn; apply IZR_lt in Hz; lra|exact Kle]|].
    replace ((1 - INR k / INR (gp - 1)) * lo + INR k / INR (gp - 1) * hi) with y by (unfold y, width; field; lra). symmetry. apply Rmax_left. lra.
Qed.
End POINTS.
Lemma steps_impl (P Q : R -> R -> Prop) l : (forall a b, In a l -> In b l -> P a b -> Q a b) -> steps P l -> steps Q l.
Proof.
  intros H HP. induction HP as [|a|a b l Hab HP IH]; [constructor|constructor|]. constructor; [apply H; [now left|right; now left|exact Hab]|]. apply IH. intros c d Hc Hd. apply H; now right.
Qed.

(** Uniform continuity of the derivatives. *)
Lemma uniform n (h : nat -> R -> R) lo hi eta : (forall i, (i < n)%nat -> forall v, lo <= v <= hi -> continuity_pt (h i) v) -> 0 < eta ->
  exists delta, 0 < delta /\ forall i y z, (i < n)%nat -> lo <= y <= hi -> lo <= z <= hi -> Rabs (y - z) < delta -> Rabs (h i y - h i z) < eta.
Proof.
  intros HC He. induction n as [|n IH]; [exists 1; split; [lra|intros; lia]|].
  destruct IH as (d1 & Hd1 & H1); [intros; apply HC; [lia|assumption]|].
  destruct (Heine (h n) (fun c => lo <= c <= hi) (compact_P3 lo hi) (HC n ltac:(lia)) (mkposreal eta He)) as [d2 H2]. cbn in H2.
  exists (Rmin d1 d2). split; [apply Rmin_glb_lt; [exact Hd1|apply cond_pos]|]. intros i y z Hi Hy Hz Hd. destruct (Nat.eq_dec i n) as [-> |Hne].
  - apply H2; auto. eapply Rlt_le_trans; [exact Hd|apply Rmin_r].
  - apply H1; auto; [lia|]. eapply Rlt_le_trans; [exact Hd|apply Rmin_l].
Qed.
