(** Lemmas: chains of scales. *)
From Verif Require Import Base BaseFacts RBase RFacts M_Logit M_Mono M_Lik M_Est M_Scale S_Scale P_Scale1.
Local Open Scope R_scope.

Notation width n := (fun t : list R => length t = n).

Lemma compose_all_length n scales fs t : Forall2 (acts_as n) scales fs -> length t = n -> length (compose_all fs t) = n.
Proof.
  intros H; revert t; induction H as [|s f scales fs Hs H IH]; intros t Ht; cbn; [assumption|].
  apply IH. apply Hs; assumption.
Qed.
Lemma map_width n f thetas : (forall t, length t = n -> length (f t) = n) -> Forall (width n) thetas -> Forall (width n) (map f thetas).
Proof. intros Hf H. rewrite Forall_map. eapply Forall_impl; [|exact H]. auto. Qed.
Lemma transform_theta_acts n scales fs thetas : Forall2 (acts_as n) scales fs -> Forall (width n) thetas ->
  transform_theta scales thetas = Ok (map (compose_all fs) thetas).
Proof.
  intros H; revert thetas; induction H as [|s f scales fs Hs H IH]; intros thetas Ht; cbn.
  - rewrite map_id; reflexivity.
  - destruct Hs as [Hl Hs]. rewrite Hs by assumption. cbn. rewrite IH by (apply map_width; assumption).
    rewrite map_map. reflexivity.
Qed.
Lemma inverse_theta_acts n scales fgs thetas :
  Forall2 (fun s fg => undone_by n s (fst fg) (snd fg)) scales fgs -> Forall (width n) thetas ->
  inverse_transform_theta scales thetas = Ok (map (compose_all (map snd fgs)) thetas).
Proof.
  intros H; revert thetas; induction H as [|s f scales fs Hs H IH]; intros thetas Ht; cbn.
  - rewrite map_id; reflexivity.
  - destruct Hs as (_ & Hl & Hs & _). rewrite Hs by assumption. cbn. rewrite IH by (apply map_width; assumption).
    rewrite map_map. reflexivity.
Qed.
Lemma undone_acts n scales fgs :
  Forall2 (fun s fg => undone_by n s (fst fg) (snd fg)) scales fgs -> Forall2 (acts_as n) scales (map fst fgs).
Proof. induction 1 as [|s fg l l' H _ IH]; constructor; [apply H|assumption]. Qed.
Lemma round_trip_pointwise n scales fgs :
  Forall2 (fun s fg => undone_by n s (fst fg) (snd fg)) scales fgs ->
  (round_trip n scales <-> forall t, length t = n -> compose_all (map snd fgs) (compose_all (map fst fgs) t) = t).
Proof.
  intros H. pose proof (undone_acts n scales fgs H) as HA. split.
  - intros HR t Ht. specialize (HR [t]). rewrite (transform_theta_acts n _ (map fst fgs)) in HR by (auto; constructor; auto).
    cbn [bind] in HR. rewrite (inverse_theta_acts n _ fgs) in HR; auto.
    + cbn in HR. assert (E := HR ltac:(constructor; auto)). congruence.
    + constructor; [|constructor]. eapply compose_all_length; eauto.
  - intros HP thetas Ht. rewrite (transform_theta_acts n _ (map fst fgs)) by auto.
    cbn [bind]. rewrite (inverse_theta_acts n _ fgs); auto.
    + rewrite map_map. f_equal. rewrite <- (map_id thetas) at 2. apply map_ext_in. intros t Hin. apply HP.
      rewrite Forall_forall in Ht. apply Ht; assumption.
    + apply map_width; [|assumption]. intros; eapply compose_all_length; eauto.
Qed.
Lemma compose_commute n f scales fs t : (forall t, length t = n -> length (f t) = n) ->
  Forall2 (acts_as n) scales fs -> Forall (commute n f) fs -> length t = n ->
  compose_all fs (f t) = f (compose_all fs t).
Proof.
  intros Hf H; revert t; induction H as [|s g scales fs Hs H IH]; intros t HC Ht; cbn; [reflexivity|].
  apply Forall_cons_iff in HC as [HC1 HC2]. rewrite <- (HC1 t Ht). apply IH; [assumption|]. apply Hs; assumption.
Qed.
Lemma round_trip_commuting n scales fgs :
  Forall2 (fun s fg => undone_by n s (fst fg) (snd fg)) scales fgs ->
  ForallOrdPairs (commute n) (map fst fgs) -> round_trip n scales.
Proof.
  intros H HC. apply (round_trip_pointwise n scales fgs H). clear - H HC.
  induction H as [|s [f g] scales fgs Hs H IH]; intros t Ht; cbn; [reflexivity|].
  cbn [map fst snd] in *. assert (HC1 : Forall (commute n f) (map fst fgs)) by (inversion HC; assumption).
  assert (HC2 : ForallOrdPairs (commute n) (map fst fgs)) by (inversion HC; assumption).
  pose proof (undone_acts n scales fgs H) as HA. destruct Hs as (Hs & _ & _ & Hgf & _). destruct Hs as [Hl _].
  fold (compose_all (map fst fgs) (f t)). rewrite (compose_commute n f scales) by assumption.
  rewrite Hgf by (eapply compose_all_length; eauto). apply IH; assumption.
Qed.
Lemma round_trip_two n s1 s2 f1 g1 f2 g2 : undone_by n s1 f1 g1 -> undone_by n s2 f2 g2 ->
  (round_trip n [s1; s2] <-> commute n f1 f2).
Proof.
  intros H1 H2. rewrite (round_trip_pointwise n [s1; s2] [(f1, g1); (f2, g2)]) by (constructor; [assumption|constructor; [assumption|constructor]]).
  cbn. destruct H1 as ([L1 _] & G1 & _ & A1 & B1). destruct H2 as ([L2 _] & G2 & _ & A2 & B2). split.
  - intros H t Ht. specialize (H t Ht).
    rewrite <- (B1 (f2 (f1 t))) by auto. f_equal.
    rewrite <- (B2 (g1 (f2 (f1 t)))) by auto. f_equal. symmetry; assumption.
  - intros H t Ht. rewrite <- (H t Ht). rewrite A1 by auto. apply A2; assumption.
Qed.
(** Undoing the scales last to first always works. *)
Lemma inverse_app s1 s2 thetas :
  inverse_transform_theta (s1 ++ s2) thetas = bind (inverse_transform_theta s1 thetas) (inverse_transform_theta s2).
Proof.
  revert thetas; induction s1 as [|s s1 IH]; intros thetas; cbn; [reflexivity|].
  destruct (sc_inverse s thetas); cbn; auto.
Qed.
Lemma round_trip_reversed n scales fgs thetas :
  Forall2 (fun s fg => undone_by n s (fst fg) (snd fg)) scales fgs -> Forall (width n) thetas ->
  bind (transform_theta scales thetas) (inverse_transform_theta (rev scales)) = Ok thetas.
Proof.
  intros H; revert thetas; induction H as [|s [f g] scales fgs Hs H IH]; intros thetas Ht; cbn; [reflexivity|].
  cbn [fst snd] in *. destruct Hs as ([Hl Hs] & Hg & Hi & Hgf & _). rewrite Hs by assumption. cbn [bind].
  pose proof (map_width n f thetas Hl Ht) as Hw. specialize (IH (map f thetas) Hw).
  destruct (transform_theta scales (map f thetas)) as [ys|e]; cbn in *; [|discriminate].
  rewrite inverse_app, IH. cbn. rewrite Hi by assumption. cbn. f_equal. rewrite map_map.
  rewrite <- (map_id thetas) at 2. apply map_ext_in. intros t Hin. apply Hgf. rewrite Forall_forall in Ht; auto.
Qed.

(** Jacobians. *)
Lemma identity_matrix n : is_matrix n n (identity n).
Proof.
  unfold identity. split; [rewrite map_length, seq_length; reflexivity|].
  apply Forall_forall; intros r Hr. apply in_map_iff in Hr as (i & <- & _). rewrite map_length, seq_length; reflexivity.
Qed.
Lemma nth_identity n i j : (i < n)%nat -> (j < n)%nat -> nth j (nth i (identity n) []) 0 = if (i =? j)%nat then 1 else 0.
Proof. intros Hi Hj. unfold identity. rewrite nth_map_seq by assumption. rewrite nth_map_seq by assumption. reflexivity. Qed.
Lemma mvec_identity n v : length v = n -> mvec (identity n) v = v.
Proof.
  intros Hv. apply (vec_ext n); [rewrite mvec_length; apply identity_matrix|assumption|]. intros i Hi.
  rewrite (nth_mvec n n) by (auto using identity_matrix). rewrite (sumn_single n i).
  - rewrite nth_identity, Nat.eqb_refl by assumption. ring.
  - assumption.
  - intros k Hk Hne. rewrite nth_identity by assumption. rewrite (proj2 (Nat.eqb_neq i k)) by auto. ring.
Qed.
Lemma identity_jacobian n t : length t = n -> is_jacobian n n (fun y => y) t (identity n).
Proof. intros H. apply jacobian_linear; [assumption|apply identity_matrix|]. intros; rewrite mvec_identity; auto. Qed.
Lemma jacobian_ext n m f g x J : (forall y, length y = n -> f y = g y) -> is_jacobian n m f x J -> is_jacobian n m g x J.
Proof.
  intros E (H1 & H2 & H3 & H4). split; [assumption|]. split; [assumption|].
  split; [intros; rewrite <- E by assumption; auto|]. intros eps He. destruct (H4 eps He) as (d & Hd & B).
  exists d. split; [assumption|]. intros y Hy Hlt. rewrite <- !E by assumption. apply B; assumption.
Qed.
Lemma jacobian_loop_derivative n scales fs h theta0 jac : (0 < n)%nat ->
  Forall2 (acts_as n) scales fs -> (forall t, length t = n -> length (h t) = n) -> Forall (width n) theta0 ->
  Forall2 (fun t J => is_jacobian n n h t J) theta0 jac ->
  derivatives_along n scales fs (map h theta0) ->
  exists js, jacobian_loop scales jac (map h theta0) = Ok js /\
    Forall2 (fun t J => is_jacobian n n (fun y => compose_all fs (h y)) t J) theta0 js.
Proof.
  intros Hn H; revert h jac; induction H as [|s f scales fs Hs H IH]; intros h jac Hh Ht HJ HD; cbn.
  - exists jac; split; [reflexivity|assumption].
  - cbn in HD. destruct HD as ((js & Ejs & Hjs) & HD). rewrite Ejs. cbn. destruct Hs as [Hl Hs].
    rewrite Hs by (apply map_width; assumption). cbn. rewrite map_map in *.
    apply (IH (fun t => f (h t))); auto.
    clear - Hn HJ Hjs. revert js Hjs. induction HJ as [|t J ts Js Ht HJ IH]; intros js Hjs; cbn in Hjs; inversion Hjs; subst; cbn.
    + constructor.
    + constructor; [|apply IH; assumption]. eapply jacobian_compose; eauto.
Qed.
Lemma Forall2_repeat_l {A B} (P : A -> B -> Prop) (l : list A) b : Forall (fun a => P a b) l -> Forall2 P l (repeat b (length l)).
Proof. induction 1; cbn; constructor; auto. Qed.
Lemma jacobian_chain n scales fs thetas : (0 < n)%nat -> Forall2 (acts_as n) scales fs -> Forall (width n) thetas ->
  derivatives_along n scales fs thetas ->
  exists js, theta_transform_jacobian n scales thetas = Ok js /\
    Forall2 (fun t J => is_jacobian n n (compose_all fs) t J) thetas js.
Proof.
  intros Hn H Ht HD. unfold theta_transform_jacobian.
  destruct (jacobian_loop_derivative n scales fs (fun t => t) thetas (repeat (identity n) (length thetas))) as (js & E & HJ); auto.
  - apply Forall2_repeat_l. eapply Forall_impl; [|exact Ht]. intros t; apply identity_jacobian.
  - rewrite map_id; assumption.
  - rewrite map_id in E. exists js; split; [assumption|]. exact HJ.
Qed.
Lemma reports_along n scales fs thetas : Forall2 (acts_as n) scales fs -> Forall2 (reports_derivative n) scales fs ->
  Forall (width n) thetas -> derivatives_along n scales fs thetas.
Proof.
  intros H; revert thetas; induction H as [|s f scales fs Hs H IH]; intros thetas HR Ht; cbn; auto.
  assert (HR1 : reports_derivative n s f) by (inversion HR; assumption).
  assert (HR2 : Forall2 (reports_derivative n) scales fs) by (inversion HR; assumption). split; [auto|]. apply IH; auto. apply map_width; [apply Hs|assumption].
Qed.
