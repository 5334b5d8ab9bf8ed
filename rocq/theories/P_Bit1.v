(** Sums of absolute changes and the integral of the absolute derivative. *)
From Coq Require Import Sorted.
From Verif Require Import Base BaseFacts RBase RFacts M_Est M_Stat M_Grid S_Grid P_Grid1 S_Mass P_Mass P_Iw3 S_Bit.
Local Open Scope R_scope.

Lemma gap_sumn n a b : length a = n -> length b = n -> gap a b = sumn n (fun i => Rabs (nth i b 0 - nth i a 0)).
Proof.
  revert a b. induction n as [|n IH]; intros [|x a] [|y b] H1 H2; cbn [length] in *; try lia; [reflexivity|]. unfold gap in *. cbn [zip_with rsum]. rewrite IH by lia. rewrite sumn_S_first. reflexivity.
Qed.
Lemma rise F f a b : a <= b -> (forall x, a <= x <= b -> derivable_pt_lim F x (f x)) -> (forall x, a <= x <= b -> 0 <= f x) -> F a <= F b.
Proof.
  intros Hab HF Hf. destruct (Req_dec a b) as [-> |Hne]; [lra|].
  destruct (MVT_cor2 F f a b ltac:(lra) ltac:(intros c Hc; apply HF; lra)) as (c & Ec & Hc). assert (0 <= f c * (b - a)) by (apply Rmult_le_pos; [apply Hf|]; lra). lra.
Qed.
Lemma deriv_sumn n (F : nat -> R -> R) (f : nat -> R) x : (forall i, (i < n)%nat -> derivable_pt_lim (F i) x (f i)) -> derivable_pt_lim (fun u => sumn n (fun i => F i u)) x (sumn n f).
Proof.
  induction n as [|n IH]; intro H; cbn [sumn]; [apply derivable_pt_lim_const|]. apply (derivable_pt_lim_plus (fun u => sumn n (fun i => F i u)) (F n)); [apply IH; intros; apply H; lia|apply H; lia].
Qed.
Lemma cont_sumn n (F : nat -> R -> R) x : (forall i, (i < n)%nat -> continuity_pt (F i) x) -> continuity_pt (fun u => sumn n (fun i => F i u)) x.
Proof.
  induction n as [|n IH]; intro H; cbn [sumn]; [apply continuity_pt_const; intros ? ?; reflexivity|]. apply (continuity_pt_plus (fun u => sumn n (fun i => F i u)) (F n)); [apply IH; intros; apply H; lia|apply H; lia].
Qed.
Section CELLS.
Variables (n : nat) (f : R -> list R) (h : nat -> R -> R) (lo hi : R) (Q : R -> R).
Hypotheses (HS : smooth_on n f h lo hi)
  (HQ : forall x, lo <= x <= hi -> derivable_pt_lim Q x (sumn n (fun i => Rabs (h i x)))).
Lemma cell_below a b : lo <= a -> a <= b -> b <= hi -> gap (f a) (f b) <= Q b - Q a.
Proof.
  intros H1 H2 H3. destruct HS as [HL HD]. rewrite (gap_sumn n) by apply HL.
  set (sg := fun i => if Rle_dec 0 (nth i (f b) 0 - nth i (f a) 0) then 1 else -1).
  assert (E : sumn n (fun i => Rabs (nth i (f b) 0 - nth i (f a) 0)) = sumn n (fun i => sg i * nth i (f b) 0) - sumn n (fun i => sg i * nth i (f a) 0)).
  { rewrite <- sumn_minus. apply sumn_ext. intros i Hi. unfold sg. destruct (Rle_dec 0 _) as [Hp|Hp]; [rewrite Rabs_right by lra; ring|rewrite Rabs_left by lra; ring]. }
  rewrite E. assert (R : Q a - sumn n (fun i => sg i * nth i (f a) 0) <= Q b - sumn n (fun i => sg i * nth i (f b) 0)); [|lra].
  apply (rise (fun u => Q u - sumn n (fun i => sg i * nth i (f u) 0)) (fun u => sumn n (fun i => Rabs (h i u)) - sumn n (fun i => sg i * h i u)) a b H2).
  - intros x Hx. apply derivable_pt_lim_minus; [apply HQ; lra|]. apply (deriv_sumn n (fun i u => sg i * nth i (f u) 0) (fun i => sg i * h i x)). intros i Hi.
    apply (derivable_pt_lim_scal (fun u => nth i (f u) 0)). apply HD; [exact Hi|lra].
  - intros x Hx. rewrite <- sumn_minus. apply sumn_nonneg. intros i Hi. unfold sg. destruct (Rle_dec 0 _); pose proof (Rle_abs (h i x)); pose proof (Rle_abs (- h i x)) as H'; rewrite Rabs_Ropp in H'; lra.
Qed.
Lemma cell_above a b eta : lo <= a -> a < b -> b <= hi ->
  (forall i y z, (i < n)%nat -> a <= y <= b -> a <= z <= b -> Rabs (h i y - h i z) <= eta) -> Q b - Q a <= gap (f a) (f b) + INR n * eta * (b - a).
Proof.
  intros H1 H2 H3 HU. destruct HS as [HL HD]. rewrite (gap_sumn n) by apply HL.
  destruct (MVT_cor2 Q (fun x => sumn n (fun i => Rabs (h i x))) a b H2 ltac:(intros c Hc; apply HQ; lra)) as (c & Ec & Hc). rewrite Ec.
  rewrite <- (Rmult_comm (b - a)), <- sumn_scal. replace (INR n * eta * (b - a)) with (sumn n (fun _ => eta * (b - a))) by (rewrite sumn_const; ring). rewrite <- sumn_plus.
  apply sumn_le. intros i Hi.
  destruct (MVT_cor2 (fun u => nth i (f u) 0) (h i) a b H2 ltac:(intros d Hd; apply HD; [exact Hi|lra])) as (d & Ed & Hd). rewrite Ed, Rabs_mult, (Rabs_right (b - a)) by lra.
  specialize (HU i c d Hi ltac:(lra) ltac:(lra)). assert (Rabs (h i c) <= Rabs (h i d) + eta). { replace (h i c) with (h i d + (h i c - h i d)) by ring. eapply Rle_trans; [apply Rabs_triang|lra]. }
  replace (Rabs (h i d) * (b - a) + eta * (b - a)) with ((b - a) * (Rabs (h i d) + eta)) by ring. apply Rmult_le_compat_l; lra.
Qed.
(** Neighbouring points. *)
Inductive steps (P : R -> R -> Prop) : list R -> Prop :=
| steps_nil : steps P []
| steps_one a : steps P [a]
| steps_cons a b l : P a b -> steps P (b :: l) -> steps P (a :: b :: l).
Lemma chain_below s l : StronglySorted Rlt (s :: l) -> Forall (fun y => lo <= y <= hi) (s :: l) -> variation f (s :: l) <= Q (last l s) - Q s.
Proof.
  revert s. induction l as [|b l IH]; intros s HS' HF; [cbn; lra|]. inversion HS' as [|? ? HS2 HF2]; subst. pose proof (Forall_inv HF) as Hs. pose proof (Forall_inv_tail HF) as HF'. pose proof (Forall_inv HF') as Hb. pose proof (Forall_inv HF2) as Hlt. cbn beta in *.
  change (variation f (s :: b :: l)) with (gap (f s) (f b) + variation f (b :: l)). specialize (IH b HS2 HF'). pose proof (cell_below s b ltac:(lra) ltac:(lra) ltac:(lra)).
  replace (last (b :: l) s) with (last l b); [lra|]. clear. revert b. induction l as [|c l IH]; intro b; [reflexivity|]. cbn [last] in *. destruct l; [reflexivity|]. apply IH.
Qed.
Lemma chain_above eta s l : StronglySorted Rlt (s :: l) -> Forall (fun y => lo <= y <= hi) (s :: l) ->
  steps (fun a b => forall i y z, (i < n)%nat -> a <= y <= b -> a <= z <= b -> Rabs (h i y - h i z) <= eta) (s :: l) ->
  Q (last l s) - Q s <= variation f (s :: l) + INR n * eta * (last l s - s).
Proof.
  revert s. induction l as [|b l IH]; intros s HS' HF HU; [cbn; lra|]. inversion HS' as [|? ? HS2 HF2]; subst. inversion HU as [| |? ? ? HU1 HU2]; subst. pose proof (Forall_inv HF) as Hs. pose proof (Forall_inv_tail HF) as HF'. pose proof (Forall_inv HF') as Hb. pose proof (Forall_inv HF2) as Hlt. cbn beta in *.
  change (variation f (s :: b :: l)) with (gap (f s) (f b) + variation f (b :: l)). specialize (IH b HS2 HF' HU2). pose proof (cell_above s b eta ltac:(lra) ltac:(lra) ltac:(lra) HU1).
  replace (last (b :: l) s) with (last l b); [lra|]. clear. revert b. induction l as [|c l IH]; intro b; [reflexivity|]. cbn [last] in *. destruct l; [reflexivity|]. apply IH.
Qed.
End CELLS.

(** Existence of the integral. *)
Lemma integral_exists n f h lo hi : lo <= hi -> smooth_on n f h lo hi ->
  exists Q, forall s x, lo <= s -> s <= x -> x <= hi -> antiderivative (fun u => sumn n (fun i => Rabs (h i u))) Q s x.
Proof.
  intros Hl [_ HD]. set (g := fun u => sumn n (fun i => Rabs (h i u))).
  assert (C0 : forall x, lo <= x <= hi -> continuity_pt g x).
  { intros x Hx. apply (cont_sumn n (fun i u => Rabs (h i u))). intros i Hi. apply (continuity_pt_comp (h i) Rabs); [apply HD; assumption|apply Rcontinuity_abs]. }
  pose proof (RiemannInt_P29 Hl C0) as [HP _]. exists (primitive Hl (FTC_P1 Hl C0)). intros s x H1 H2 H3. split; [|exact H2]. intros y Hy. apply HP. lra.
Qed.
