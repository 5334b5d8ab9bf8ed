(** Property theorems C115: hidden units of the monotone neural network stay copies of each other. *)
From Verif Require Import Base BaseFacts RBase RFacts M_Data M_CV M_Logit M_Mono M_Lik M_Est M_Train M_Mix M_Quad M_Adam P_Logit P_Sym1 P_Mono1 P_Mono2 P_Mono3 P_Mono4 P_Mono5 P_Twin1 P_Twin2 P_Twin3 P_Unit1 P_Unit2 P_Unit3 P_Unit4 P_Unit5 P_Unit6 P_Unit7 S_Logit S_Mono S_Twin S_Unit T_Twin.
Import M_Mono List.
Local Open Scope R_scope.

(** The list of parameters is the network's: it can be read back, and other trained numbers after it change nothing. *)
Theorem C115_parameters : forall m rest p, with_net m (net_parameters m ++ rest) = m /\
  ((length (net_parameters m) <= length p)%nat -> same_mnn m (with_net m p) /\ net_parameters (with_net m p) = firstn (length (net_parameters m)) p).
Proof. intros m rest p. split; [apply with_net_own|]. intro H. split; [now apply with_net_same|now apply parameters_with]. Qed.
Print Assumptions C115_parameters.

(** Every loss of joint or marginal maximum likelihood has a gradient. *)
Theorem C115_gradient : forall cats lv rel hidden key sep neg bounded m M points n,
  mnn_init cats lv rel hidden key sep neg bounded = Ok m -> cats <> [] -> Forall (fun K => (1 <= K)%nat) cats -> (0 < lv)%nat -> (forall h, hidden = Some h -> Forall (fun x => (0 < x)%nat) h) ->
  (length (net_parameters m) <= n)%nat -> points <> [] -> Forall (fun q => 0 < fst q) points ->
  (exists autograd, forall b, gradient n (batch_loss m (joint_loss M lv) b) (autograd b)) /\ (exists autograd, forall b, gradient n (batch_loss m (marginal_loss M points) b) (autograd b)).
Proof.
  intros cats lv rel hidden key sep neg bounded m M points n H Hc HK Hlv Hh HN HP HW. pose proof (init_network _ _ _ _ _ _ _ _ _ H Hc HK Hlv Hh) as NW. split.
  - exists (fun b => proj1_sig (joint_gradient m (quiet m) M lv b n NW HN)). intro b. exact (proj2_sig (joint_gradient m (quiet m) M lv b n NW HN)).
  - exists (fun b => proj1_sig (marginal_gradient m (quiet m) M points b n NW HN HP HW)). intro b. exact (proj2_sig (marginal_gradient m (quiet m) M points b n NW HN HP HW)).
Qed.
Print Assumptions C115_gradient.

Lemma trained_alike {B} cats lv rel hidden key sep neg bounded m rest (L : B -> list R -> (list R -> result (list ext)) -> R) autograd (loss : B -> adam -> fl) p :
  mnn_init cats lv rel hidden key sep neg bounded = Ok m -> cats <> [] -> Forall (fun K => (1 <= K)%nat) cats -> (0 < lv)%nat -> (forall h, hidden = Some h -> Forall (fun x => (0 < x)%nat) h) ->
  let start := net_parameters m ++ rest in
  (forall b, gradient (length start) (batch_loss m L b) (autograd b)) -> trained_by loss autograd start p ->
  (length (net_parameters m) <= length p)%nat /\ alike (unit_pairs m) p.
Proof.
  intros H Hc HK Hlv Hh start HG HT. pose proof (init_network _ _ _ _ _ _ _ _ _ H Hc HK Hlv Hh) as NW. assert (LS : (length (net_parameters m) <= length start)%nat) by (unfold start; rewrite app_length; lia). set (n := length start) in *.
  assert (PI : forall j k, unit_pairs m j k -> (j < n)%nat /\ (k < n)%nat) by (intros j k; now apply (pairs_inside m (quiet m) NW)).
  set (update := fun b rate s => adam_step rate (autograd b (ad_x s)) s).
  assert (U : forall b rate s, good n (unit_pairs m) s -> good n (unit_pairs m) (update b rate s)) by (intros b rate s Hs; unfold update; apply (good_update n (unit_pairs m) PI (batch_loss m L b) (autograd b)); [apply HG|now apply (exchange m (quiet m) NW)|exact Hs]).
  assert (S : good n (unit_pairs m) (adam_new start)) by (apply good_new; [reflexivity|exact (init_alike _ _ _ _ _ _ _ _ _ (quiet m) rest H NW)]).
  assert (Q : forall s, good n (unit_pairs m) s -> p = ad_x s -> (length (net_parameters m) <= length p)%nat /\ alike (unit_pairs m) p).
  { intros s G ->. destruct G as ((G0 & _) & G1 & _). split; [lia|exact G1]. }
  destruct HT as [(lr & patience & limit & epochs & data & E)|[(lr & patience & limit & epochs & batches & E)|(lr & limit & epochs & interval & norm & small & loader & r & HR & E)]]; refine (Q _ _ E).
  - now apply (mml_kept _ _ (good n (unit_pairs m))); [intros; apply U|].
  - now apply (jml_kept _ _ (good n (unit_pairs m))); [intros; apply U|].
  - revert HR. apply (ae_kept _ _ (good n (unit_pairs m))); [intros; now apply U|exact S].
Qed.

(** Whatever is minimised and whichever training loop is used, units of the same item or category with the same activation function are copies afterwards. *)
Theorem C115_copies : forall {B} cats lv rel hidden key sep neg bounded m rest (L : B -> list R -> (list R -> result (list ext)) -> R) autograd (loss : B -> adam -> fl) p,
  mnn_init cats lv rel hidden key sep neg bounded = Ok m -> cats <> [] -> Forall (fun K => (1 <= K)%nat) cats -> (0 < lv)%nat -> (forall h, hidden = Some h -> Forall (fun x => (0 < x)%nat) h) ->
  let start := net_parameters m ++ rest in
  (forall b, gradient (length start) (batch_loss m L b) (autograd b)) -> trained_by loss autograd start p -> copies (with_net m p).
Proof.
  intros B cats lv rel hidden key sep neg bounded m rest L autograd loss p H Hc HK Hlv Hh start HG HT. destruct (trained_alike _ _ _ _ _ _ _ _ _ _ L _ _ _ H Hc HK Hlv Hh HG HT) as [Q1 Q2]. now apply (copies_of_alike m (quiet m) (init_network _ _ _ _ _ _ _ _ _ H Hc HK Hlv Hh)).
Qed.
Print Assumptions C115_copies.

(** The widths asked for in [hidden_dim] are not used: with the default negation layer the fitted network is one with a single unit of every kind in every layer. *)
Theorem C115_width_refuted : forall {B} cats lv rel hidden key sep bounded m rest (L : B -> list R -> (list R -> result (list ext)) -> R) autograd (loss : B -> adam -> fl) p,
  mnn_init cats lv rel (Some hidden) key sep true bounded = Ok m -> cats <> [] -> Forall (fun K => (1 <= K)%nat) cats -> (0 < lv)%nat -> Forall (fun x => (0 < x)%nat) hidden ->
  let start := net_parameters m ++ rest in
  (forall b, gradient (length start) (batch_loss m L b) (autograd b)) -> trained_by loss autograd start p ->
  exists small fitted, mnn_init cats lv rel (Some (map (fun _ => kinds bounded) hidden)) key sep true bounded = Ok small /\ same_mnn small fitted /\ mnn_forward1 fitted = mnn_forward1 (with_net m p).
Proof.
  intros B cats lv rel hidden key sep bounded m rest L autograd loss p H Hc HK Hlv Hh start HG HT. assert (Hh' : forall h, Some hidden = Some h -> Forall (fun x => (0 < x)%nat) h) by (intros h E; now injection E as <-).
  destruct (trained_alike _ _ _ _ _ _ _ _ _ _ L _ _ _ H Hc HK Hlv Hh' HG HT) as [Q1 Q2]. pose proof (init_network _ _ _ _ _ _ _ _ _ H Hc HK Hlv Hh') as NW.
  set (a := INR (last (units_for bounded (Some hidden)) O / kinds bounded)). destruct (init_parts _ _ _ _ _ _ _ _ _ H) as (r & layers & _ & HM & _ & E).
  assert (HA : a <> 0).
  { unfold a. apply not_0_INR. cbn [units_for] in *. assert (HS : hidden <> []) by (pose proof (hidden_some m _ NW) as Q; rewrite E in Q; exact Q). destruct (exists_last HS) as (l0 & b & ->). rewrite last_last. apply Forall_app in HM as [_ HM]. apply Forall_app in Hh as [_ Hh]. apply Forall_inv in HM, Hh. pose proof (kinds_pos bounded). pose proof (Nat.div_mod b (kinds bounded) ltac:(lia)). nia. }
  destruct (narrow_network _ _ _ _ _ _ _ _ m p a H Hc HK Hlv Hh' Q1 Q2 HA) as (m0 & m2 & H0 & SM & EB & _ & Q). exists m0, m2. split; [exact H0|]. split; [exact SM|]. destruct (init_parts _ _ _ _ _ _ _ _ _ H0) as (r0 & layers0 & _ & _ & _ & E0). destruct SM as (S1 & S2 & S3 & S4 & S5 & S6 & S7 & S8 & _).
  assert (L2 : n_lv m2 = lv) by (rewrite S2, E0; reflexivity). apply same_forward_of; [rewrite S1, E0, E; reflexivity|rewrite S2, E0, E; reflexivity|rewrite S5, E0, E; reflexivity|rewrite S8, E0, E; reflexivity|exact EB|]. intros d t Hd. rewrite Q by (rewrite <- L2; exact Hd). fold a. destruct (mnn_lv_output m2 d t); [|reflexivity]. cbn [rmap]. f_equal.
  rewrite <- (map_id l) at 1. apply map_ext. intro v. field. exact HA.
Qed.
Print Assumptions C115_width_refuted.

(** Without the negation layer the outputs are a multiple of those of the small network, fixed by [hidden_dim] alone. *)
Theorem C115_width_plain_refuted : forall {B} cats lv rel hidden key sep neg bounded m rest (L : B -> list R -> (list R -> result (list ext)) -> R) autograd (loss : B -> adam -> fl) p,
  mnn_init cats lv rel (Some hidden) key sep neg bounded = Ok m -> cats <> [] -> Forall (fun K => (1 <= K)%nat) cats -> (0 < lv)%nat -> Forall (fun x => (0 < x)%nat) hidden ->
  let start := net_parameters m ++ rest in
  (forall b, gradient (length start) (batch_loss m L b) (autograd b)) -> trained_by loss autograd start p ->
  exists small fitted, mnn_init cats lv rel (Some (map (fun _ => kinds bounded) hidden)) key sep neg bounded = Ok small /\ same_mnn small fitted /\ n_bias fitted = n_bias (with_net m p) /\
    forall d t, (d < lv)%nat -> mnn_lv_output (with_net m p) d t = rmap (map (Rmult (INR (last hidden O / kinds bounded)))) (mnn_lv_output fitted d t).
Proof.
  intros B cats lv rel hidden key sep neg bounded m rest L autograd loss p H Hc HK Hlv Hh start HG HT. assert (Hh' : forall h, Some hidden = Some h -> Forall (fun x => (0 < x)%nat) h) by (intros h E; now injection E as <-).
  destruct (trained_alike _ _ _ _ _ _ _ _ _ _ L _ _ _ H Hc HK Hlv Hh' HG HT) as [Q1 Q2]. destruct (narrow_network _ _ _ _ _ _ _ _ m p 1 H Hc HK Hlv Hh' Q1 Q2 ltac:(lra)) as (m0 & m2 & H0 & SM & EB & _ & Q). exists m0, m2. split; [exact H0|]. split; [exact SM|]. split; [exact EB|]. intros d t Hd. rewrite Q by exact Hd. cbn [units_for]. destruct neg; [|reflexivity]. destruct (mnn_lv_output m2 d t); [|reflexivity]. cbn [rmap]. f_equal. apply map_ext. intro v. field.
Qed.
Print Assumptions C115_width_plain_refuted.

(** The architecture is not to blame: parameters for which units of the same kind differ exist whenever the first layer has more than one unit of every kind. *)
Theorem C115_could_differ : forall cats lv h hs key sep neg bounded m,
  mnn_init cats lv None (Some (h :: hs)) key sep neg bounded = Ok m -> cats <> [] -> Forall (fun K => (1 <= K)%nat) cats -> (0 < lv)%nat -> Forall (fun x => (0 < x)%nat) (h :: hs) -> (kinds bounded < h)%nat ->
  exists p, length p = length (net_parameters m) /\ ~ copies (with_net m p).
Proof.
  intros cats lv h hs key sep neg bounded m H Hc HK Hlv Hh HB. pose proof (init_network _ _ _ _ _ _ _ _ _ H Hc HK Hlv ltac:(intros h0 E; now injection E as <-)) as NW. destruct (init_parts _ _ _ _ _ _ _ _ _ H) as (r & layers & Hr & HM & HL & E). cbn [units_for] in *.
  assert (Hlv' : (0 < n_lv m)%nat) by (rewrite E; exact Hlv). assert (Hk : (0 < length (n_hidden m))%nat) by (rewrite E; cbn; lia). assert (HH : nth 0 (n_hidden m) O = h) by (rewrite E; reflexivity). assert (EB : n_bounded m = bounded) by (rewrite E; reflexivity). pose proof (kinds_pos bounded) as KP.
  pose proof (groups_pos m (quiet m) NW) as GP. destruct (shape_at m (quiet m) NW O O Hlv' Hk) as (W0 & I0 & O0 & _ & Z0 & _). fold (layer_of m O O) in W0, I0, O0, Z0. rewrite HH in *.
  assert (QZ : quiet m 0 0 = false).
  { unfold quiet. rewrite E. cbn [n_cats n_sep_items n_rel]. cbn [relationships] in Hr. injection Hr as <-. destruct cats as [|K cats]; [congruence|]. destruct lv as [|lv]; [lia|]. pose proof (Forall_inv HK) as K1. destruct sep; [reflexivity|]. unfold silent, layer_zero_out. pose proof (list_max_pos (K :: cats) ltac:(discriminate) HK) as MP. destruct (list_max (K :: cats)) as [|M]; [lia|]. destruct K as [|K]; [lia|]. reflexivity. }
  set (u := pos m (KB 0 0 0)). set (p := upd u 1 (net_parameters m)). assert (VB : forall o, (o < h)%nat -> valid m (KB 0 0 o)) by (intros o Ho; cbn [valid]; rewrite O0; split; [exact Hlv'|]; split; [exact Hk|]; split; [nia|]; rewrite Z0 by nia; now rewrite Nat.div_small).
  assert (LP : length p = length (net_parameters m)) by apply upd_length. exists p. split; [exact LP|]. intro C. specialize (C O O O (kinds bounded) 0 Hlv' Hk). cbn [with_net n_hidden n_bounded] in C. change (n_separations (with_net m p)) with (n_separations m) in C. cbn zeta in C. rewrite HH, EB in C.
  specialize (C ltac:(nia) ltac:(nia)).
  assert (HMh : (h mod kinds bounded = 0)%nat) by exact (Forall_inv HM). assert (KK : same_kind bounded h O (kinds bounded)) by (unfold same_kind; rewrite !Nat.div_small, Nat.mod_same, Nat.mod_small by lia; now split). specialize (C KK).
  pose proof (network_with m (quiet m) NW p ltac:(lia)) as NWp. pose proof (nw_wired _ _ NWp O Hlv') as WW. cbn [with_net n_hidden] in WW. destruct (n_hidden m) as [|h0 hs0] eqn:EH; [cbn in Hk; lia|]. cbn [nth] in HH. subst h0.
  unfold unit_values in C. change (n_bounded (with_net m p)) with (n_bounded m) in C. rewrite EB in C. cbn [with_net n_layers] in C. cbn [with_net n_layers] in WW. destruct (nth 0 (with_stacks (n_layers m) p) []) as [|l ls] eqn:EL; [contradiction|]. cbn [wired] in WW. destruct WW as (W1 & W2 & W3 & _). change (n_separations (with_net m p)) with (n_separations m) in W3.
  change (firstn 1 (l :: ls)) with [l] in C. cbn [run_layers] in C. destruct (layer_step bounded l [0] (n_separations m) h W1 W3 HMh) as (y & Y1 & Y2 & Y3); [now rewrite W2|]. rewrite Y1 in C. cbn [bind] in C. rewrite !Y3 in C by nia. rewrite W2 in C. unfold predictor in C. cbn [sumn nth] in C. rewrite !Rmult_0_r, !Rplus_0_l in C.
  assert (LO : forall o, (o < h)%nat -> layer_bias l o = if (o =? 0)%nat then 1 else 0).
  { intros o Ho. pose proof (bias_read m (quiet m) NW p O O o ltac:(lia) Hlv' ltac:(rewrite EH; cbn; lia) ltac:(rewrite O0; nia)) as Q. replace (layer_of (with_net m p) 0 0) with l in Q by (unfold layer_of; cbn [with_net n_layers]; now rewrite EL). rewrite Q, Z0 by nia. rewrite Nat.div_small by exact Ho. rewrite QZ.
    assert (UL : (u < length (net_parameters m))%nat) by (pose proof (pos_lt m (quiet m) NW (KB 0 0 0) (VB O ltac:(lia))) as P0; unfold u, net_parameters; rewrite app_length; lia).
    unfold p. rewrite nth_upd by exact UL. destruct (Nat.eqb_spec u (pos m (KB 0 0 o))) as [EQ|NE]; [apply (pos_inj m (quiet m) NW) in EQ; [injection EQ as <-; reflexivity|apply VB; lia|now apply VB]|].
    destruct (Nat.eqb_spec o 0) as [->|NO]; [contradiction|]. pose proof (pos_lt m (quiet m) NW (KB 0 0 o) (VB o Ho)) as P0. unfold net_parameters. rewrite app_nth1 by exact P0. pose proof (init_zero _ _ _ _ _ _ _ _ _ H) as Z. rewrite Forall_forall in Z. apply Z, nth_In, P0. }
  rewrite !LO in C by lia. cbn [Nat.eqb] in C. destruct (Nat.eqb_spec (kinds bounded) 0) as [F|_]; [lia|]. rewrite <- (act_kind bounded O (kinds bounded) (proj2 KK)) in C. pose proof (act_increasing bounded O 0 1 ltac:(lra)). lra.
Qed.
Print Assumptions C115_could_differ.

(** Two items with two and three categories, hidden layers of six and twelve units, the default bounded activation functions and the negation layer, joint maximum likelihood of two rows in two batches. *)
Example C115_nonvacuous : exists m autograd,
  let start := net_parameters m ++ [1; -1] in
  let update b rate s := adam_step rate (autograd b (ad_x s)) s in
  let p := ad_x (tr_w (jml_train (fun _ _ => Some (Fin 0)) update (1/4) 10 4 100 [[(0%nat, [1; 2]%nat)]; [(1%nat, [0; 0]%nat)]] (adam_new start))) in
  mnn_init [2; 3]%nat 1 None (Some [6; 12]%nat) None false true true = Ok m /\
  (forall b, gradient (length start) (batch_loss m (joint_loss 3 1) b) (autograd b)) /\ trained_by (fun _ _ => Some (Fin 0)) autograd start p /\
  copies (with_net m p) /\ (exists q, length q = length (net_parameters m) /\ ~ copies (with_net m q)) /\
  exists small fitted, mnn_init [2; 3]%nat 1 None (Some [3; 3]%nat) None false true true = Ok small /\ same_mnn small fitted /\ mnn_forward1 fitted = mnn_forward1 (with_net m p).
Proof.
  destruct (init_total [2; 3]%nat 1 None [6; 12]%nat None false true true _ eq_refl ltac:(discriminate) ltac:(repeat constructor)) as (m & H). exists m.
  assert (HK : Forall (fun K => (1 <= K)%nat) [2; 3]%nat) by (repeat constructor). assert (Hh : Forall (fun x => (0 < x)%nat) [6; 12]%nat) by (repeat constructor).
  destruct (C115_gradient _ _ _ _ _ _ _ _ m 3 [(1, [0])] (length (net_parameters m ++ [1; -1])) H ltac:(discriminate) HK ltac:(lia) ltac:(intros h E; now injection E as <-) ltac:(rewrite app_length; lia) ltac:(discriminate) ltac:(repeat constructor; cbn; lra)) as ((autograd & HG) & _). exists autograd. intros start update p.
  assert (T : trained_by (fun _ _ => Some (Fin 0)) autograd start p) by (right; left; now exists (1/4), 10%nat, 4%Z, 100%Z, [[(0%nat, [1; 2]%nat)]; [(1%nat, [0; 0]%nat)]]).
  split; [exact H|]. split; [exact HG|]. split; [exact T|]. split; [|split].
  - exact (C115_copies _ _ _ _ _ _ _ _ m [1; -1] (joint_loss 3 1) autograd _ p H ltac:(discriminate) HK ltac:(lia) ltac:(intros h E; now injection E as <-) HG T).
  - exact (C115_could_differ _ _ _ _ _ _ _ _ m H ltac:(discriminate) HK ltac:(lia) Hh ltac:(cbn; lia)).
  - exact (C115_width_refuted _ _ _ _ _ _ _ m [1; -1] (joint_loss 3 1) autograd _ p H ltac:(discriminate) HK ltac:(lia) Hh HG T).
Qed.
