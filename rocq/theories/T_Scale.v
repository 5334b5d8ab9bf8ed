(** Property theorems C36-C39, C69, C70: scale transformations. *)
From Verif Require Import Base BaseFacts RBase RFacts M_Logit S_Logit M_Mono S_Mono P_Mono2 M_Lik M_Est M_Scale S_Scale P_Scale1 P_Scale2 P_Scale3 P_Scale4.
Local Open Scope R_scope.

(** ** C36 rescaling round trip *)
(** Full statement: [round_trip n scales] for every list of invertible scales.  It fails for two scales
    that do not commute, because the inverses run in the order of the scales (C36_order_refuted). *)
Theorem C36_single_partial : forall n s f g, undone_by n s f g -> round_trip n [s].
Proof.
  intros n s f g H. apply (round_trip_commuting n [s] [(f, g)]).
  - constructor; [assumption|constructor].
  - cbn. constructor; constructor.
Qed.
Print Assumptions C36_single_partial.
Example C36_single_nonvacuous : undone_by 2 (rotate_scale quarter quarter_inv) (fun t => vecmat t quarter) (fun t => vecmat t quarter_inv) /\
  round_trip 2 [rotate_scale quarter quarter_inv].
Proof.
  split; [apply rotate_undone; [lia|apply quarter_inverse]|].
  eapply C36_single_partial. apply rotate_undone; [lia|apply quarter_inverse].
Qed.
Theorem C36_commuting_partial : forall n scales fgs,
  Forall2 (fun s fg => undone_by n s (fst fg) (snd fg)) scales fgs ->
  ForallOrdPairs (commute n) (map fst fgs) -> round_trip n scales.
Proof. exact round_trip_commuting. Qed.
Print Assumptions C36_commuting_partial.
(** Any number of reverse scales. *)
Example C36_commuting_nonvacuous : forall n flagss, Forall (fun flags => length flags = n) flagss ->
  round_trip n (map reverse_scale flagss).
Proof. exact reverses_round_trip. Qed.
(** The round trip of two scales succeeds exactly when they commute. *)
Theorem C36_order_refuted : forall n s1 s2 f1 g1 f2 g2, undone_by n s1 f1 g1 -> undone_by n s2 f2 g2 ->
  (round_trip n [s1; s2] <-> forall t, length t = n -> f1 (f2 t) = f2 (f1 t)).
Proof. exact round_trip_two. Qed.
Print Assumptions C36_order_refuted.
(** Reversing the first variable and then rotating a quarter turn: every score comes back with both signs
    changed. *)
Example C36_order_nonvacuous : forall x y,
  bind (transform_theta [reverse_scale [true; false]; rotate_scale quarter quarter_inv] [[x; y]])
       (inverse_transform_theta [reverse_scale [true; false]; rotate_scale quarter quarter_inv]) = Ok [[- x; - y]].
Proof. exact not_commuting. Qed.
Example C36_order_nonvacuous_scales :
  undone_by 2 (reverse_scale [true; false]) (reverse_row [true; false]) (reverse_row [true; false]) /\
  undone_by 2 (rotate_scale quarter quarter_inv) (fun t => vecmat t quarter) (fun t => vecmat t quarter_inv) /\
  ~ round_trip 2 [reverse_scale [true; false]; rotate_scale quarter quarter_inv].
Proof.
  split; [apply reverse_undone; reflexivity|]. split; [apply rotate_undone; [lia|apply quarter_inverse]|].
  intros H. specialize (H [[1; 0]] ltac:(constructor; [reflexivity|constructor])). rewrite not_commuting in H.
  injection H as H _. lra.
Qed.
(** Undoing last to first would work for every list. *)
Theorem C36_reverse_order_partial : forall n scales fgs thetas,
  Forall2 (fun s fg => undone_by n s (fst fg) (snd fg)) scales fgs -> Forall (fun t => length t = n) thetas ->
  bind (transform_theta scales thetas) (inverse_transform_theta (rev scales)) = Ok thetas.
Proof. exact round_trip_reversed. Qed.
Print Assumptions C36_reverse_order_partial.
Example C36_reverse_order_nonvacuous : forall x y,
  bind (transform_theta [reverse_scale [true; false]; rotate_scale quarter quarter_inv] [[x; y]])
       (inverse_transform_theta (rev [reverse_scale [true; false]; rotate_scale quarter quarter_inv])) = Ok [[x; y]].
Proof.
  intros x y. apply (C36_reverse_order_partial 2 _ [(reverse_row [true; false], reverse_row [true; false]);
    (fun t => vecmat t quarter, fun t => vecmat t quarter_inv)]).
  - constructor; [apply reverse_undone; reflexivity|]. constructor; [apply rotate_undone; [lia|apply quarter_inverse]|constructor].
  - constructor; [reflexivity|constructor].
Qed.
(** After any history of adding and detaching, the scales in force are those added since the last detach,
    in the order added. *)
Theorem C36_attached_partial : forall before added thetas,
  transform_theta (attached (before ++ DetachScales :: map AddScale added)) thetas = transform_theta added thetas /\
  inverse_transform_theta (attached (before ++ DetachScales :: map AddScale added)) thetas = inverse_transform_theta added thetas.
Proof.
  intros before added thetas.
  assert (E : attached (before ++ DetachScales :: map AddScale added) = added).
  { unfold attached. rewrite fold_left_app. cbn. rewrite <- (app_nil_l added) at 2. generalize (@nil scale) as acc.
    induction added as [|s added IH]; intros acc; cbn; [symmetry; apply app_nil_r|]. rewrite IH, <- app_assoc. reflexivity. }
  rewrite E. auto.
Qed.
Print Assumptions C36_attached_partial.
Example C36_attached_nonvacuous :
  transform_theta (attached [AddScale (reverse_scale [true]); DetachScales; AddScale (reverse_scale [false])]) [[3]] =
  transform_theta [reverse_scale [false]] [[3]].
Proof. exact (proj1 (C36_attached_partial [AddScale (reverse_scale [true])] [reverse_scale [false]] [[3]])). Qed.

(** ** C37 Jacobian of a chain *)
(** The reported matrix is the total derivative of the chained transformation at every score. *)
Theorem C37_chain_rule : forall n scales fs thetas, (0 < n)%nat ->
  Forall2 (acts_as n) scales fs -> Forall (fun t => length t = n) thetas -> derivatives_along n scales fs thetas ->
  exists js, theta_transform_jacobian n scales thetas = Ok js /\
    transform_theta scales thetas = Ok (map (compose_all fs) thetas) /\
    Forall2 (fun t J => is_jacobian n n (compose_all fs) t J) thetas js.
Proof.
  intros n scales fs thetas Hn HA Hw HD. destruct (jacobian_chain n scales fs thetas Hn HA Hw HD) as (js & E & HJ).
  exists js. split; [assumption|]. split; [apply (transform_theta_acts n); assumption|assumption].
Qed.
Print Assumptions C37_chain_rule.
(** Its entries are the partial derivatives, and there is no other total derivative. *)
Theorem C37_entries : forall n f x J i j, is_jacobian n n f x J -> (i < n)%nat -> (j < n)%nat ->
  derivable_pt_lim (fun t => nth i (f (upd j t x)) 0) (nth j x 0) (nth j (nth i J []) 0).
Proof. intros n f x J i j. apply partial_derivative. Qed.
Print Assumptions C37_entries.
Theorem C37_unique : forall n f x J K, is_jacobian n n f x J -> is_jacobian n n f x K -> J = K.
Proof. intros n f x J K. apply jacobian_unique. Qed.
Print Assumptions C37_unique.
(** Reverse then rotate: the order of the product matters and comes out right. *)
Example C37_nonvacuous : exists js,
  theta_transform_jacobian 2 [reverse_scale [true; false]; rotate_scale quarter quarter_inv] [[3; 5]] = Ok js /\
  js = [[[0; -1]; [-1; 0]]] /\
  Forall2 (fun t J => is_jacobian 2 2 (compose_all [reverse_row [true; false]; fun t => vecmat t quarter]) t J) [[3; 5]] js.
Proof.
  assert (HA : Forall2 (acts_as 2) [reverse_scale [true; false]; rotate_scale quarter quarter_inv] [reverse_row [true; false]; fun t => vecmat t quarter]).
  { constructor; [apply reverse_acts; reflexivity|]. constructor; [apply (rotate_undone 2 quarter quarter_inv); [lia|apply quarter_inverse]|constructor]. }
  assert (HW : Forall (fun t : list R => length t = 2%nat) [[3; 5]]) by (constructor; [reflexivity|constructor]).
  destruct (C37_chain_rule 2 _ _ [[3; 5]] ltac:(lia) HA HW) as (js & E & _ & HJ).
  - apply reports_along; auto. constructor; [apply reverse_derivative; reflexivity|].
    constructor; [apply rotate_derivative; [lia|apply quarter_inverse]|constructor].
  - exists js. split; [assumption|]. split; [|assumption].
    unfold theta_transform_jacobian in E. cbn [jacobian_loop sc_jacobian sc_transform reverse_scale rotate_scale bind] in E.
    unfold scale_rows, rotate_rows in E. rewrite reverse_signs_map in E. cbn in E. injection E as <-.
    unfold vecmat, dot. cbn. unfold vecmat, dot. cbn. repeat f_equal; ring.
Qed.

(** ** C38 reverse and rotation scales *)
Theorem C38_reverse_transform : forall flags thetas, Forall (fun t => length t = length flags) thetas ->
  exists out, sc_transform (reverse_scale flags) thetas = Ok out /\ length out = length thetas /\
    forall i j t b, nth_error thetas i = Some t -> nth_error flags j = Some b ->
      at2 out i j = Some (if b then - nth j t 0 else nth j t 0).
Proof.
  intros flags thetas H. eexists. split; [apply (reverse_acts (length flags) flags eq_refl); exact H|].
  rewrite map_length. split; [reflexivity|]. intros i j t b Ht Hb. unfold at2. rewrite nth_error_map, Ht. cbn [option_map].
  rewrite Forall_forall in H. pose proof (H t (nth_error_In _ _ Ht)) as Hw.
  assert (Hj : (j < length flags)%nat) by (apply nth_error_Some; congruence).
  rewrite (nth_error_nth' _ 0) by (rewrite (reverse_row_length (length flags)); auto).
  rewrite (nth_reverse_row (length flags)) by auto. rewrite (nth_error_nth _ _ false Hb). destruct b; f_equal; ring.
Qed.
Print Assumptions C38_reverse_transform.
Example C38_reverse_transform_nonvacuous : exists out, sc_transform (reverse_scale [true; false]) [[2; 3]] = Ok out /\ at2 out 0 0 = Some (-(2)) /\ at2 out 0 1 = Some 3.
Proof.
  destruct (C38_reverse_transform [true; false] [[2; 3]] ltac:(constructor; [reflexivity|constructor])) as (out & E & _ & H).
  exists out. split; [exact E|]. split; [apply (H 0%nat 0%nat [2; 3] true); reflexivity|apply (H 0%nat 1%nat [2; 3] false); reflexivity].
Qed.
Theorem C38_reverse_own_inverse : forall flags thetas, Forall (fun t => length t = length flags) thetas ->
  bind (sc_transform (reverse_scale flags) thetas) (sc_transform (reverse_scale flags)) = Ok thetas /\
  bind (sc_transform (reverse_scale flags) thetas) (sc_inverse (reverse_scale flags)) = Ok thetas.
Proof.
  intros flags thetas H.
  assert (E : bind (sc_transform (reverse_scale flags) thetas) (sc_transform (reverse_scale flags)) = Ok thetas); [|split; exact E].
  destruct (reverse_acts (length flags) flags eq_refl) as [Hl Ha]. rewrite Ha by assumption. cbn [bind].
  rewrite Ha by (apply map_width; assumption). f_equal. rewrite map_map. rewrite <- (map_id thetas) at 2.
  apply map_ext_in. intros t Ht. apply (reverse_involution (length flags)); [reflexivity|]. rewrite Forall_forall in H; auto.
Qed.
Print Assumptions C38_reverse_own_inverse.
Example C38_reverse_own_inverse_nonvacuous :
  bind (sc_transform (reverse_scale [true; false]) [[2; 3]; [4; 5]]) (sc_inverse (reverse_scale [true; false])) = Ok [[2; 3]; [4; 5]].
Proof. apply C38_reverse_own_inverse. constructor; [reflexivity|constructor; [reflexivity|constructor]]. Qed.
(** One matrix per score row: -1 or 1 on the diagonal and 0 elsewhere, the derivative of the scale. *)
Theorem C38_reverse_jacobian : forall flags thetas, Forall (fun t => length t = length flags) thetas ->
  exists js, sc_jacobian (reverse_scale flags) thetas = Ok js /\
    Forall2 (fun t J => is_jacobian (length flags) (length flags) (reverse_row flags) t J /\
      forall i j, (i < length flags)%nat -> (j < length flags)%nat ->
        nth j (nth i J []) 0 = if (i =? j)%nat then (if nth i flags false then -1 else 1) else 0) thetas js.
Proof.
  intros flags thetas H. destruct (reverse_derivative (length flags) flags eq_refl thetas H) as (js & E & HJ).
  exists js. split; [assumption|]. injection E as <-. apply Forall2_repeat_l. apply Forall_forall. intros t Ht.
  split.
  - destruct (Forall2_nth_l _ _ _ 0%nat t (Forall2_repeat_l _ [t] (diag (reverse_signs flags)) ltac:(constructor; [|constructor];
      exact (proj1 (Forall_forall (fun t => is_jacobian (length flags) (length flags) (reverse_row flags) t (diag (reverse_signs flags))) thetas)
        ltac:(apply Forall_forall; intros t' Ht'; apply In_nth_error in Ht' as (k & Hk); destruct (Forall2_nth_l _ _ _ k t' HJ Hk) as (b & Hb & HJb);
              apply nth_error_In, repeat_spec in Hb; subst b; exact HJb) t Ht))) eq_refl) as (b & Hb & HJb).
    cbn in Hb. injection Hb as <-. exact HJb.
  - intros i j Hi Hj. rewrite nth_diag by (rewrite reverse_signs_length; assumption). rewrite nth_reverse_signs by assumption. reflexivity.
Qed.
Print Assumptions C38_reverse_jacobian.
Example C38_reverse_jacobian_nonvacuous : is_jacobian 2 2 (reverse_row [true; false]) [2; 3] [[-1; 0]; [0; 1]].
Proof.
  destruct (C38_reverse_jacobian [true; false] [[2; 3]] ltac:(constructor; [reflexivity|constructor])) as (js & E & H).
  cbn [sc_jacobian reverse_scale] in E. rewrite reverse_signs_map in E. cbn in E. injection E as <-.
  inversion H as [|? ? ? ? (HJ & _) _]; subst. exact HJ.
Qed.
(** Rotation: the value, the inverse for every invertible matrix, and the derivative. *)
Theorem C38_rotate : forall inv n A s, (0 < n)%nat ->
  (forall B, inv A = Ok B -> inverse_matrix n A B) -> rotate_new inv n A = Ok s ->
  forall thetas, Forall (fun t => length t = n) thetas ->
  (exists out, sc_transform s thetas = Ok out /\ length out = length thetas /\
     (forall i j t, nth_error thetas i = Some t -> (j < n)%nat ->
        at2 out i j = Some (sumn n (fun k => nth k t 0 * nth j (nth k A []) 0))) /\
     sc_inverse s out = Ok thetas) /\
  (exists js, sc_jacobian s thetas = Ok js /\
     Forall2 (fun t J => is_jacobian n n (fun y => vecmat y A) t J /\
       forall i j, (i < n)%nat -> (j < n)%nat -> nth j (nth i J []) 0 = nth i (nth j A []) 0) thetas js).
Proof.
  intros inv n A s Hn Hinv Hs thetas Ht. unfold rotate_new in Hs. destruct (square n A) eqn:HS; [|discriminate].
  destruct (inv A) as [B|e]; cbn in Hs; [|discriminate]. injection Hs as <-. specialize (Hinv B eq_refl).
  pose proof (rotate_undone n A B Hn Hinv) as ((Hl & Ha) & Hg & Hi & Hgf & _). pose proof (proj1 Hinv) as HA. split.
  - eexists. split; [apply Ha; assumption|]. rewrite map_length. split; [reflexivity|]. split.
    + intros i j t E Hj. unfold at2. rewrite nth_error_map, E. cbn [option_map].
      rewrite (nth_error_nth' _ 0) by (rewrite vecmat_width with (n := n); assumption).
      f_equal. apply (nth_vecmat n n); auto. rewrite Forall_forall in Ht. apply Ht. eapply nth_error_In; eauto.
    + rewrite Hi by (apply map_width; assumption). f_equal. rewrite map_map. rewrite <- (map_id thetas) at 2.
      apply map_ext_in. intros t Hin. apply Hgf. rewrite Forall_forall in Ht; auto.
  - eexists. split; [reflexivity|]. apply Forall2_repeat_l. eapply Forall_impl; [|exact Ht]. intros t Hw. split.
    + apply jacobian_linear; [assumption|apply transpose_matrix; assumption|]. intros; apply (vecmat_transpose n); assumption.
    + intros i j Hi' Hj. apply (nth_transpose n); assumption.
Qed.
Print Assumptions C38_rotate.
Example C38_rotate_nonvacuous : exists s, rotate_new (fun _ => Ok quarter_inv) 2 quarter = Ok s /\
  inverse_matrix 2 quarter quarter_inv /\ exists out, sc_transform s [[3; 5]] = Ok out /\ sc_inverse s out = Ok [[3; 5]].
Proof.
  exists (rotate_scale quarter quarter_inv). split; [reflexivity|]. split; [apply quarter_inverse|].
  destruct (C38_rotate (fun _ => Ok quarter_inv) 2 quarter (rotate_scale quarter quarter_inv) ltac:(lia)
    ltac:(intros B HB; injection HB as <-; apply quarter_inverse) eq_refl [[3; 5]] ltac:(constructor; [reflexivity|constructor])) as ((out & E & _ & _ & E') & _).
  exists out; auto.
Qed.
(** Other shapes are refused. *)
Theorem C38_rotate_dimensions : forall inv n A, rotate_new inv n A = Err ValueError \/ is_matrix n n A.
Proof.
  intros inv n A. unfold rotate_new. destruct (square n A) eqn:E; [right; apply square_matrix; assumption|left; reflexivity].
Qed.
Print Assumptions C38_rotate_dimensions.
Example C38_rotate_dimensions_nonvacuous : rotate_new (fun A => Ok A) 2 [[1; 0]] = Err ValueError.
Proof. reflexivity. Qed.

(** ** C39 linking scale inverse *)
Theorem C39_not_inverted_partial : forall grad f g, (forall x, g (f x) = x) -> (forall y, f (g y) = y) ->
  round_trip 1 [link_spline_scale grad f g false].
Proof. intros grad f g H1 H2. eapply C36_single_partial. apply link_undone; assumption. Qed.
Print Assumptions C39_not_inverted_partial.
Example C39_not_inverted_nonvacuous : round_trip 1 [link_spline_scale (fun _ _ => 0) (fun x => 2 * x + 1) (fun y => (y - 1) / 2) false].
Proof. apply C39_not_inverted_partial; intros; field. Qed.
(** With [inverted = True] the inverse undoes the transformation only for odd link functions: the sign is
    applied after, not before, the inverse function. *)
Theorem C39_inverted_refuted : forall grad f g, (forall x, g (f x) = x) -> (forall y, f (g y) = y) ->
  (round_trip 1 [link_spline_scale grad f g true] <-> forall x, f (- x) = - f x).
Proof. exact link_inverted_iff. Qed.
Print Assumptions C39_inverted_refuted.
Example C39_inverted_nonvacuous : ~ round_trip 1 [link_spline_scale (fun _ _ => 0) (fun x => 2 * x + 1) (fun y => (y - 1) / 2) true].
Proof.
  intros H. pose proof (proj1 (C39_inverted_refuted (fun _ _ => 0) (fun x => 2 * x + 1) (fun y => (y - 1) / 2)
    ltac:(intros; cbn beta; field) ltac:(intros; cbn beta; field)) H 0) as E. cbn beta in E. lra.
Qed.
(** Construction is refused for models with different or several latent variables, missing, empty or
    unequally long common-item lists and unknown methods. *)
Theorem C39_construction_partial : forall (A : Type) lv1 lv2 (i1 i2 : option (list A)) method,
  link_check lv1 lv2 i1 i2 method = Ok tt <->
  lv1 = 1%nat /\ lv2 = 1%nat /\ (exists a b, i1 = Some a /\ i2 = Some b /\ length a = length b /\ a <> []) /\ method <> LinkOther.
Proof.
  intros A lv1 lv2 i1 i2 method. unfold link_check. split.
  - destruct (Nat.eqb_spec lv1 lv2) as [<-|]; cbn [negb]; [|discriminate].
    destruct (Nat.eqb_spec lv1 1) as [->|]; cbn [negb]; [|discriminate].
    destruct i1 as [a|]; [|discriminate]. destruct i2 as [b|]; [|discriminate].
    destruct (Nat.eqb_spec (length a) (length b)) as [E|]; cbn [negb]; [|discriminate].
    destruct (Nat.ltb_spec (length a) 1); [discriminate|]. intros H'.
    split; [reflexivity|]. split; [reflexivity|]. split.
    + exists a, b. repeat split; auto. intros ->; cbn in *; lia.
    + destruct method; congruence.
  - intros (-> & -> & (a & b & -> & -> & E & Ha) & Hm). rewrite !Nat.eqb_refl. cbn [negb].
    rewrite (proj2 (Nat.eqb_eq _ _) E). cbn [negb]. destruct a as [|x a]; [congruence|]. cbn [length].
    change (S (length a) <? 1)%nat with false. destruct method; congruence.
Qed.
Print Assumptions C39_construction_partial.
Example C39_construction_nonvacuous : link_check 1 1 (Some [0%nat]) (Some [3%nat]) LinkSpline = Ok tt /\
  link_check 1 1 (Some [0%nat]) (Some [3%nat; 4%nat]) LinkSpline = Err ValueError.
Proof. split; reflexivity. Qed.

(** ** C69 rescaled gradients *)
(** Each row of the result is the gradient with respect to the transformed scores. *)
Theorem C69_rescaled_gradient : forall n solve scales fs thetas m grads (h : nat -> nat -> list R -> R) (g' : nat -> nat -> list R),
  (0 < n)%nat -> thetas <> [] -> solve_exact n solve -> Forall2 (acts_as n) scales fs -> Forall (fun t => length t = n) thetas ->
  derivatives_along n scales fs thetas ->
  (forall t J, In t thetas -> is_jacobian n n (compose_all fs) t J -> exists B, inverse_matrix n J B) ->
  length grads = (length thetas * m)%nat ->
  (forall i j t, nth_error thetas i = Some t -> (j < m)%nat ->
     is_gradient n (h i j) (compose_all fs t) (g' i j) /\
     is_gradient n (fun y => h i j (compose_all fs y)) t (nth (i * m + j) grads [])) ->
  exists out, rescale_gradients solve n scales grads thetas = Ok out /\ length out = length grads /\
    forall i j, (i < length thetas)%nat -> (j < m)%nat -> nth_error out (i * m + j) = Some (g' i j).
Proof. exact rescale_correct. Qed.
Print Assumptions C69_rescaled_gradient.
(** One latent variable, reversed: the gradient 2 of the item score 2x at the original score becomes -2. *)
Lemma ex_affine_gradient c x : is_gradient 1 (fun y => c * nth 0 y 0) [x] [c].
Proof.
  apply jacobian_linear; [reflexivity|split; [reflexivity|repeat constructor]|].
  intros y Hy. rewrite (width1 y Hy). cbn. f_equal. unfold dot. cbn. ring.
Qed.
Definition ex_solve (A : list (list R)) (b : list R) : result (list fl) :=
  match A, b with [[a]], [x] => Ok [Some (Fin (x / a))] | _, _ => Err RuntimeError end.
Lemma ex_solve_exact : solve_exact 1 ex_solve.
Proof.
  intros A B b (HA & HB & H1 & _) Hb. destruct b as [|x [|? ?]]; try discriminate.
  destruct HA as [LA FA]. destruct A as [|r [|? ?]]; try discriminate. inversion FA as [|? ? Lr _]; subst.
  destruct r as [|a [|? ?]]; try discriminate. destruct HB as [LB FB]. destruct B as [|r [|? ?]]; try discriminate.
  inversion FB as [|? ? Lr' _]; subst. destruct r as [|a' [|? ?]]; try discriminate.
  specialize (H1 O O ltac:(lia) ltac:(lia)). cbn in H1.
  assert (a <> 0) by (intros ->; lra).
  exists [x / a]. split; [reflexivity|]. split; [reflexivity|]. cbn. f_equal. unfold dot. cbn. field. assumption.
Qed.
Example C69_nonvacuous : exists out,
  rescale_gradients ex_solve 1 [reverse_scale [true]] [[2]; [3]] [[7]] = Ok out /\
  nth_error out 0 = Some [-(2)] /\ nth_error out 1 = Some [-(3)].
Proof.
  destruct (C69_rescaled_gradient 1 ex_solve [reverse_scale [true]] [reverse_row [true]] [[7]] 2 [[2]; [3]]
    (fun _ j y => (if (j =? 0)%nat then -(2) else -(3)) * nth 0 y 0) (fun _ j => [if (j =? 0)%nat then -(2) else -(3)])) as (out & E & _ & H).
  - lia.
  - discriminate.
  - exact ex_solve_exact.
  - constructor; [apply reverse_acts; reflexivity|constructor].
  - constructor; [reflexivity|constructor].
  - apply reports_along; [constructor; [apply reverse_acts; reflexivity|constructor]|constructor; [apply reverse_derivative; reflexivity|constructor]|constructor; [reflexivity|constructor]].
  - intros t J [<-|[]] HJ. exists [[-1]].
    assert (HR : is_jacobian 1 1 (compose_all [reverse_row [true]]) [7] [[-1]]).
    { destruct (C38_reverse_jacobian [true] [[7]] ltac:(constructor; [reflexivity|constructor])) as (js & Ejs & HF).
      cbn [sc_jacobian reverse_scale] in Ejs. rewrite reverse_signs_map in Ejs. cbn in Ejs. injection Ejs as <-.
      inversion HF as [|? ? ? ? (HJ' & _) _]; subst. exact HJ'. }
    rewrite (C37_unique 1 _ _ _ _ HJ HR). split; [split; [reflexivity|repeat constructor]|]. split; [split; [reflexivity|repeat constructor]|].
    split; intros i j Hi Hj; assert (i = O) by lia; assert (j = O) by lia; subst; cbn; ring.
  - reflexivity.
  - intros i j t Ht Hj. destruct i as [|i]; [|destruct i; discriminate]. cbn in Ht. injection Ht as <-. split.
    + unfold compose_all. cbn [fold_left]. rewrite (width1 (reverse_row [true] [7]) eq_refl). apply ex_affine_gradient.
    + apply (jacobian_ext 1 1 (fun y => [(if (j =? 0)%nat then 2 else 3) * nth 0 y 0])).
      * intros y Hy. unfold compose_all. cbn [fold_left]. rewrite (nth_reverse_row 1) by auto. cbn [nth].
        f_equal. destruct (j =? 0)%nat; ring.
      * destruct j as [|[|j]]; [| |lia]; cbn [nth Nat.mul Nat.add Nat.eqb]; apply ex_affine_gradient.
  - exists out. split; [exact E|]. split; [apply (H 0%nat 0%nat); cbn; lia|apply (H 0%nat 1%nat); cbn; lia].
Qed.

(** ** C70 Jacobian of the linking and flow scales *)
(** Full statement: the Jacobian reported by these scales is the derivative of their transformation.  It holds
    for the flow and for linking by a spline, and fails for linking by a neural network (C70_neuralnet_refuted). *)
Theorem C70_spline_partial : forall grad f g inverted t l, autograd_exact grad -> derivable_pt_lim f t l ->
  exists J, sc_jacobian (link_spline_scale grad f g inverted) [[t]] = Ok [J] /\
    sc_transform (link_spline_scale grad f g inverted) [[t]] = Ok [[(if inverted then - f t else f t)]] /\
    is_jacobian 1 1 (map (fun x => if inverted then - f x else f x)) [t] J.
Proof.
  intros grad f g inverted t l HG Hd. destruct (link_jacobian grad f g inverted t l HG Hd) as (E & HJ).
  eexists. split; [exact E|]. split.
  - cbn. unfold link_multiplier. destruct inverted; repeat f_equal; ring.
  - revert HJ. apply jacobian_ext. intros y _. unfold link_row, link_multiplier. apply map_ext. intros x. destruct inverted; ring.
Qed.
Print Assumptions C70_spline_partial.
Definition lower_slope (f : R -> R) (x r : R) : Prop :=
  exists d, 0 < d /\ forall h, h <> 0 -> Rabs h < d -> r <= (f (x + h) - f x) / h.
Lemma lower_slope_lub f x l : derivable_pt_lim f x l -> is_lub (lower_slope f x) l.
Proof.
  intros Hd. split.
  - intros r (d & Hd0 & B). destruct (Rle_lt_dec r l) as [|Hlt]; [assumption|]. exfalso.
    destruct (Hd (r - l) ltac:(lra)) as ([e He] & B'). cbn [pos] in B'.
    set (h := Rmin d e / 2). assert (0 < Rmin d e) by (apply Rmin_pos; assumption).
    assert (Rmin d e <= d) by apply Rmin_l. assert (Rmin d e <= e) by apply Rmin_r.
    assert (Hh : Rabs h = h) by (apply Rabs_right; unfold h; lra).
    specialize (B h ltac:(unfold h; lra) ltac:(rewrite Hh; unfold h; lra)).
    specialize (B' h ltac:(unfold h; lra) ltac:(rewrite Hh; unfold h; lra)). apply Rabs_def2 in B'. lra.
  - intros b Hb. destruct (Rle_lt_dec l b) as [|Hlt]; [assumption|]. exfalso.
    assert (E : lower_slope f x ((l + b) / 2)).
    { destruct (Hd ((l - b) / 2) ltac:(lra)) as ([e He] & B'). cbn [pos] in B'. exists e. split; [assumption|].
      intros h Hh0 Hh. specialize (B' h Hh0 Hh). apply Rabs_def2 in B'. lra. }
    specialize (Hb _ E). lra.
Qed.
Lemma autograd_exists : exists grad, autograd_exact grad.
Proof.
  assert (G : forall f x, {l | forall l', derivable_pt_lim f x l' -> l = l'}).
  { intros f x. destruct (ClassicalDedekindReals.sig_not_dec (exists l, derivable_pt_lim f x l)) as [Hn|Hn].
    - assert (He : exists l, derivable_pt_lim f x l) by (apply Classical_Prop.NNPP; assumption).
      destruct (completeness (lower_slope f x)) as (m & Hm).
      + destruct He as (l & Hl). exists l. apply (lower_slope_lub f x l Hl).
      + destruct He as (l & Hl). exists (l - 1). destruct (Hl 1 ltac:(lra)) as ([e He] & B). exists e. split; [assumption|].
        intros h Hh0 Hh. specialize (B h Hh0 Hh). apply Rabs_def2 in B. lra.
      + exists m. intros l' Hl'. eapply is_lub_u; [exact Hm|apply lower_slope_lub; assumption].
    - exists 0. intros l' Hl'. exfalso; apply Hn; exists l'; assumption. }
  exists (fun f x => proj1_sig (G f x)). intros f x l Hl. destruct (G f x) as (l0 & H0). cbn. auto.
Qed.
Example C70_spline_nonvacuous : exists grad J, autograd_exact grad /\
  sc_jacobian (link_spline_scale grad (fun x => x * 3) (fun y => y / 3) true) [[2]] = Ok [J] /\
  is_jacobian 1 1 (map (fun x => - (x * 3))) [2] J.
Proof.
  destruct autograd_exists as (grad & HG). destruct (C70_spline_partial grad (fun x => x * 3) (fun y => y / 3) true 2 3 HG (derivable_scal_lin 3 2)) as (J & E & _ & HJ).
  exists grad, J. auto.
Qed.
Theorem C70_flow_partial : forall n grad means stds fs gs t ls, autograd_exact grad ->
  length means = n -> length stds = n -> length fs = n -> length t = n -> length ls = n ->
  (forall i, (i < n)%nat -> nth i stds 0 <> 0) ->
  (forall i, (i < n)%nat -> derivable_pt_lim (nth i fs (fun x => x)) ((nth i t 0 - nth i means 0) / nth i stds 0) (nth i ls 0)) ->
  exists J, sc_jacobian (flow_scale grad means stds (Some (fs, gs))) [t] = Ok [J] /\
    (exists y, sc_transform (flow_scale grad means stds (Some (fs, gs))) [t] = Ok [y] /\
      forall i, (i < n)%nat -> nth i y 0 = nth i fs (fun x => x) ((nth i t 0 - nth i means 0) / nth i stds 0)) /\
    is_jacobian n n (flow_row means stds fs) t J.
Proof.
  intros n grad means stds fs gs t ls HG H1 H2 H3 H4 H5 Hs Hd.
  destruct (flow_jacobian n grad means stds fs gs t ls HG H1 H2 H3 H4 H5 Hs Hd) as (E & HJ). eexists. split; [exact E|]. split; [|exact HJ].
  eexists. split; [reflexivity|]. intros i Hi. apply (nth_flow_row n); assumption.
Qed.
Print Assumptions C70_flow_partial.
Example C70_flow_nonvacuous : exists grad J, autograd_exact grad /\
  sc_jacobian (flow_scale grad [1; 2] [2; 4] (Some ([(fun x => x * 3); (fun x => x * 5)], []))) [[0; 0]] = Ok [J] /\
  is_jacobian 2 2 (flow_row [1; 2] [2; 4] [(fun x => x * 3); (fun x => x * 5)]) [0; 0] J.
Proof.
  destruct autograd_exists as (grad & HG).
  destruct (C70_flow_partial 2 grad [1; 2] [2; 4] [(fun x => x * 3); (fun x => x * 5)] [] [0; 0] [3; 5] HG) as (J & E & _ & HJ); try reflexivity.
  - intros [|[|i]] Hi; cbn; [lra|lra|lia].
  - intros [|[|i]] Hi; [apply derivable_scal_lin|apply derivable_scal_lin|lia].
  - exists grad, J. auto.
Qed.
(** The flow round trip, given that the spline and its inverse undo each other (C40). *)
Theorem C70_flow_round_trip_partial : forall n grad means stds fs gs, length means = n -> length stds = n -> length fs = n -> length gs = n ->
  (forall i, (i < n)%nat -> nth i stds 0 <> 0) ->
  (forall i x, (i < n)%nat -> nth i gs (fun x => x) (nth i fs (fun x => x) x) = x) ->
  (forall i x, (i < n)%nat -> nth i fs (fun x => x) (nth i gs (fun x => x) x) = x) ->
  round_trip n [flow_scale grad means stds (Some (fs, gs))].
Proof. intros. eapply C36_single_partial. apply flow_undone; eassumption. Qed.
Print Assumptions C70_flow_round_trip_partial.
Example C70_flow_round_trip_nonvacuous : round_trip 1 [flow_scale (fun _ _ => 0) [1] [2] (Some ([fun x => x * 3], [fun y => y / 3]))].
Proof.
  apply C70_flow_round_trip_partial; try reflexivity; intros i; intros; assert (i = O) by lia; subst; cbn; [lra|field|field].
Qed.
(** An unfitted flow is refused. *)
Theorem C70_flow_unfitted_partial : forall grad means stds thetas,
  sc_transform (flow_scale grad means stds None) thetas = Err ValueError /\
  sc_inverse (flow_scale grad means stds None) thetas = Err ValueError /\
  sc_jacobian (flow_scale grad means stds None) thetas = Err ValueError.
Proof. intros; repeat split. Qed.
Print Assumptions C70_flow_unfitted_partial.
(** Neural network: the reported number is the sum of the positive weights, at every score; it exceeds the
    derivative wherever an elu unit is in its negative range.  [layer] is any one-input softplus layer. *)
Theorem C70_neuralnet_refuted : forall grad layer t o, autograd_exact grad -> spl_wf layer -> sl_in layer = 1%nat ->
  (sl_out layer mod 3 = 0)%nat -> (o < sl_out layer)%nat -> (o mod 3 = 0)%nat -> nth 0 (nth o (sl_free layer) []) false = true ->
  nth o (spl_forward layer [t]) 0 < 0 ->
  exists value slope,
    (forall x, sc_transform (link_nn_scale grad layer false) [[x]] = Ok [[value x]]) /\
    sc_jacobian (link_nn_scale grad layer false) [[t]] = Ok [[[slope]]] /\
    (forall l, derivable_pt_lim value t l -> l < slope).
Proof.
  intros grad layer t o HG Hw Hi Hm Ho Hom Hfree Hneg. exists (nn_value layer), (nn_slope layer). split; [|split].
  - intros x. cbn. rewrite link_nn_value_eq by assumption. cbn. rewrite Rmult_1_r. reflexivity.
  - rewrite nn_jacobian_value by assumption. unfold link_multiplier. rewrite Rmult_1_r. reflexivity.
  - intros l Hl. rewrite spl_forward_one in Hneg by assumption. eapply nn_derivative_below; eauto. apply layer_weight_pos; assumption.
Qed.
Print Assumptions C70_neuralnet_refuted.
Definition ex_layer : spl :=
  {| sl_in := 1; sl_out := 3; sl_softplus := true; sl_zero_out := [false; false; false];
     sl_free := [[true]; [true]; [true]]; sl_raw := [0; 0; 0]; sl_bias := [0; 0; 0] |}.
Example C70_neuralnet_nonvacuous : spl_init 1 3 None None None None true = Ok ex_layer /\
  spl_wf ex_layer /\ nth 0 (spl_forward ex_layer [-1]) 0 < 0.
Proof.
  split; [reflexivity|].
  assert (W : spl_wf ex_layer) by (unfold spl_wf, ex_layer; cbn; repeat split; try lia; repeat constructor).
  split; [exact W|]. rewrite spl_forward_one by (auto; cbn; lia).
  pose proof (layer_weight_pos ex_layer 0 0 W eq_refl) as Hp. unfold layer_bias. cbn [ex_layer sl_zero_out sl_bias nth map negb firstn ctrue filter length].
  change (ctrue (firstn 0 (map negb [false; false; false]))) with 0%nat. cbn [nth]. lra.
Qed.
(** It is also refused, with the scores, for a number of neurons that is no multiple of three. *)
Theorem C70_neuralnet_width_partial : forall grad layer inverted t, spl_wf layer -> (sl_out layer mod 3 <> 0)%nat ->
  sc_transform (link_nn_scale grad layer inverted) [t] = Err RuntimeError.
Proof. intros grad layer inverted t Hw Hm. cbn. rewrite link_nn_width by assumption. reflexivity. Qed.
Print Assumptions C70_neuralnet_width_partial.
