(** Property C144: monotone models are estimated and scored by the probabilities they report. *)
From Coq Require Import Lra.
From Verif Require T_Est T_Mono.
From Verif Require Import Base BaseFacts RBase RFacts M_Data M_CV M_Logit M_Lik M_Est M_Opt M_Jml M_Mono M_Flex P_Lik1 P_Lik2 P_Lik5 P_Logit P_Est1 P_Est2 P_Est3 P_Opt3 P_Mono4 P_Mono5 P_Mono6 P_Mono7 P_Flex S_Logit S_Lik S_Est S_Eap S_Mono S_Flex.
Import List.
Local Open Scope R_scope.

Lemma likelihood_positive lv cats p t row : distributions lv cats p -> length t = lv -> legal_row cats row -> 0 < likelihood p t row.
Proof.
  intros HD Ht [HL HR]. apply rprod_pos. apply Forall_forall. intros x Hx. apply In_nth_error in Hx as [i Hi]. rewrite nth_error_mapi in Hi.
  destruct (nth_error row i) as [c|] eqn:Ec; [|discriminate]. cbn in Hi. injection Hi as <-. destruct (answer c) as [k|] eqn:E; [|lra].
  destruct (nth_error cats i) as [K|] eqn:EK; [|apply nth_error_None in EK; assert (i < length row)%nat by (apply nth_error_Some; congruence); lia].
  apply (proj1 (HD t i K Ht EK)). destruct (HR i c Ec) as [-> |[-> |(j & -> & Hj)]]; cbn in E; try discriminate. unfold answer in E. destruct (Z.eqb_spec (Z.of_nat j) (-1)); [lia|]. injection E as <-. rewrite Nat2Z.id. now rewrite (nth_error_nth _ _ O EK) in Hj.
Qed.
Lemma scored m p : has_probabilities m p -> has_sum m p -> rowwise m -> (0 < em_items m)%nat -> distributions (em_lv m) (em_cats m) p -> scored_by m p.
Proof.
  intros HP HS HF HI HD. assert (POS : forall t i k, length t = em_lv m -> (k < nth i (em_cats m) O)%nat -> 0 < p t i k).
  { intros t i k Ht Hk. destruct (nth_error (em_cats m) i) as [K|] eqn:EK; [|apply nth_error_None in EK; rewrite nth_overflow in Hk by exact EK; lia]. apply (proj1 (HD t i K Ht EK)). now rewrite (nth_error_nth _ _ O EK) in Hk. }
  split; [|split; [|split]].
  - intros points ws data Hp _ Hl HFp Hw Hd. replace (map (fun w => Some (Fin (ln w))) ws) with (map (fun w => flog (Some w)) ws).
    2:{ apply map_ext_in. intros w Hin. rewrite Forall_forall in Hw. now rewrite flog_pos by auto. }
    destruct points as [|t0 ts]; [congruence|]. destruct ws as [|w0 ws]; [discriminate|].
    apply (T_Est.C30_any_model m p (t0 :: ts) (w0 :: ws) data); auto; [cbn; lia|eapply Forall_impl; [|exact Hw]; intros; lra|].
    eapply Forall_impl; [|exact Hd]. intros row Hrow. exists 0%nat, w0, t0. split; [reflexivity|]. split; [reflexivity|].
    apply Rmult_lt_0_compat; [now inversion Hw|]. apply (likelihood_positive (em_lv m) (em_cats m)); auto. now inversion HFp.
  - intros thetas data _ HFt HL Hd. split.
    + change (jml_loss m (Wide (em_items m) data) thetas) with (scoring_loss m None (Wide (em_items m) data) thetas). rewrite (scoring_value m p) by auto. do 4 f_equal. apply sumn_ext. intros n _. unfold row_target. cbn [prior_term]. ring.
    + intro lp. rewrite (scoring_value m p) by auto. reflexivity.
  - intros mvn a scores logpdf points Hlv Ha Hs Hmvn g Hg.
    assert (HB : legal_data (em_cats m) [map (fun _ => None) (em_cats m)]).
    { constructor; [|constructor]. split; [now rewrite map_length|]. intros i c Hc. rewrite nth_error_map in Hc. destruct (nth_error (em_cats m) i); [|discriminate]. cbn in Hc. injection Hc as <-. now left. }
    destruct (T_Est.any_model_grid mvn m p a scores logpdf points [map (fun _ => None) (em_cats m)] HP HF HI Hlv Ha Hs Hmvn Hg ltac:(discriminate) HB) as (grid & EG & _). change (eap_default_points (em_lv m)) with (usual_points (em_lv m)) in EG. fold g in EG.
    exists grid. split; [now apply T_Est.theta_grid_is|]. intros data Hne Hd.
    destruct (T_Est.any_model_grid mvn m p a scores logpdf points data HP HF HI Hlv Ha Hs Hmvn Hg Hne Hd) as (grid' & EG' & E). change (eap_default_points (em_lv m)) with (usual_points (em_lv m)) in EG'. fold g in EG'.
    assert (grid' = grid) by congruence. subst grid'. apply E.
    pose proof (grid_length (em_lv m) g scores grid Hs EG) as HL. destruct grid as [|t ts]; [cbn [length] in HL; symmetry in HL; apply Nat.pow_eq_0_iff in HL; lia|].
    eapply Forall_impl; [|exact Hd]. intros row Hrow. exists t. split; [now left|]. apply (likelihood_positive (em_lv m) (em_cats m)); auto.
    exact (proj1 (proj1 (in_grid (em_lv m) g scores (t :: ts) Hs EG t) (or_introl eq_refl))).
  - intros mvn logpdf points Hlv Hmvn g Hg. set (grid := product (repeat (linspace (-3) 3 g) (em_lv m))).
    assert (LG : length grid = (g ^ em_lv m)%nat).
    { unfold grid. rewrite P_CV.product_length, map_repeat. unfold linspace. rewrite map_length, seq_length. assert (G : forall a k, fold_right Nat.mul 1%nat (repeat a k) = (a ^ k)%nat) by (induction k as [|k IH]; [reflexivity|]; cbn [repeat fold_right Nat.pow]; now rewrite IH). apply G. }
    exists grid. split; [split; [exact LG|intro t; apply T_Est.wide_grid]|]. intros data Hne Hd.
    destruct (P_Est6.eap_unfitted m p mvn HP HF HI Hlv points data Hd Hne logpdf Hg Hmvn) as (grid' & -> & FG & E). change (eap_default_points (em_lv m)) with (usual_points (em_lv m)) in *. fold g in FG, E. fold grid in FG, E. apply E.
    destruct grid as [|t ts]; [cbn [length] in LG; symmetry in LG; apply Nat.pow_eq_0_iff in LG; lia|].
    eapply Forall_impl; [|exact Hd]. intros row Hrow. exists t. split; [now left|]. apply (likelihood_positive (em_lv m) (em_cats m)); auto. exact (Forall_inv FG).
Qed.
Lemma items_positive (l : list nat) : l <> [] -> (0 < length l)%nat.
Proof. destruct l; [congruence|cbn; lia]. Qed.

(** ** C144 *)
(** MonotoneNN, for any values of its parameters, with a multiple-choice key or without. *)
Theorem C144_network : forall nanl cats lv rel hidden key sep neg bounded m0 m,
  mnn_init cats lv rel hidden key sep neg bounded = Ok m0 -> cats <> [] -> Forall (fun K => (1 <= K)%nat) cats -> (0 < lv)%nat ->
  (forall h, hidden = Some h -> Forall (fun x => (0 < x)%nat) h) ->
  (forall k, key = Some k -> length k = length cats /\ forall i K, nth_error cats i = Some K -> (nth i k O < K)%nat) -> same_mnn m0 m ->
  exists p, reports (mnn_probabilities m) lv cats p /\ distributions lv cats p /\ scored_by (mnn_model nanl m) p.
Proof.
  intros nanl cats lv rel hidden key sep neg bounded m0 m E0 HC HK Hlv Hh Hkey Hs.
  destruct (mnn_init_ok _ _ _ _ _ _ _ _ _ E0 HC HK Hlv Hh) as (Hok0 & Ec & El & Ek & _). pose proof (same_mnn_ok _ _ Hs Hok0) as Hok.
  assert (Ec' : n_cats m = cats) by (unfold same_mnn in Hs; decompose [and] Hs; congruence). assert (El' : n_lv m = lv) by (unfold same_mnn in Hs; decompose [and] Hs; congruence). assert (Ek' : n_key m = key) by (unfold same_mnn in Hs; decompose [and] Hs; congruence).
  destruct (mnn_logits nanl m Hok) as (f & z & F1 & F2 & F3).
  { intros k Hk. rewrite Ek' in Hk. unfold n_items. rewrite Ec'. now apply Hkey. }
  clear Ec El. subst lv cats. exists (logit_p (mnn_model nanl m) z).
  assert (HD : distributions (n_lv m) (n_cats m) (logit_p (mnn_model nanl m) z)) by (apply (logits_distribution (mnn_model nanl m) z); exact HK).
  split; [|split; [exact HD|]].
  - intros thetas _ HF. unfold mnn_probabilities. rewrite (proj1 (F3 thetas HF)). eexists. split; [reflexivity|]. intros r t i K k Hr Hi Hk.
    eapply (logits_table (mnn_model nanl m)); eauto.
  - apply scored; [| | | |exact HD].
    + eapply (logits_have_probabilities (mnn_model nanl m) nanl f z); eauto. intros thetas HF. exact (proj2 (F3 thetas HF)).
    + eapply (logits_sum (mnn_model nanl m) nanl f z); eauto. intros thetas HF. exact (proj2 (F3 thetas HF)).
    + apply flat_rowwise; eapply (logits_flat (mnn_model nanl m) f). intros thetas HF. exact (proj2 (F3 thetas HF)).
    + apply items_positive; exact HC.
Qed.
Print Assumptions C144_network.
(** MonotonePolynomial. *)
Theorem C144_polynomial : forall nanl cats lv rel degree sep neg dir0 m0 m,
  mpm_init cats lv rel degree sep neg dir0 = Ok m0 -> cats <> [] -> Forall (fun K => (1 <= K)%nat) cats -> same_mpm m0 m ->
  exists p, reports (fun thetas => Ok (mpm_probabilities m thetas)) lv cats p /\ distributions lv cats p /\ scored_by (mpm_model nanl m) p.
Proof.
  intros nanl cats lv rel degree sep neg dir0 m0 m E0 HC HK Hs.
  destruct (mpm_init_ok _ _ _ _ _ _ _ _ E0 HC HK) as (Hok0 & Ec & El & _). pose proof (same_mpm_ok _ _ Hs Hok0) as Hok.
  assert (Ec' : q_cats m = cats) by (unfold same_mpm in Hs; decompose [and] Hs; congruence). assert (El' : mp_in (q_poly m) = lv) by (unfold same_mpm in Hs; decompose [and] Hs; congruence).
  destruct (mpm_logits nanl m Hok) as (f & z & F1 & F2 & F3).
  clear Ec El. subst lv cats. exists (logit_p (mpm_model nanl m) z).
  assert (HD : distributions (mp_in (q_poly m)) (q_cats m) (logit_p (mpm_model nanl m) z)) by (apply (logits_distribution (mpm_model nanl m) z); exact HK).
  split; [|split; [exact HD|]].
  - intros thetas _ HF. unfold mpm_probabilities. rewrite (proj1 (F3 thetas HF)). eexists. split; [reflexivity|]. intros r t i K k Hr Hi Hk.
    eapply (logits_table (mpm_model nanl m)); eauto.
  - apply scored; [| | | |exact HD].
    + eapply (logits_have_probabilities (mpm_model nanl m) nanl f z); eauto. intros thetas HF. exact (proj2 (F3 thetas HF)).
    + eapply (logits_sum (mpm_model nanl m) nanl f z); eauto. intros thetas HF. exact (proj2 (F3 thetas HF)).
    + apply flat_rowwise; eapply (logits_flat (mpm_model nanl m) f). intros thetas HF. exact (proj2 (F3 thetas HF)).
    + apply items_positive; exact HC.
Qed.
Print Assumptions C144_polynomial.
(** A two-dimensional network with a key, and a cubic: the marginal loss of three rows with two missing answers is a number. *)
Definition mc_net := mnn_init [3;2]%nat 2 None (Some [3;6]%nat) (Some [1;0]%nat) true true true.
Definition cubic := mpm_init [3;2]%nat 2 None 3 false true (fun d _ => if (d =? 0)%nat then 1 else -1).
Definition mc_answers : list (list cell) := [[Some 2; Some 1]; [None; Some 0]; [Some 0; Some (-1)]]%Z.
Lemma mc_legal : legal_data [3;2]%nat mc_answers.
Proof.
  apply Forall_forall; intros row [<-|[<-|[<-|[]]]]; split; try reflexivity; intros [|[|i]] c E; cbn in E; try (destruct i; discriminate); injection E as <-;
    first [now left | right; left; reflexivity | right; right; first [exists 2%nat; split; [reflexivity|cbn; lia]|exists 1%nat; split; [reflexivity|cbn; lia]|exists 0%nat; split; [reflexivity|cbn; lia]]].
Qed.
Example C144_nonvacuous : exists m q v w, mc_net = Ok m /\ cubic = Ok q /\
  mml_loss (mnn_model (-1) m) [[0;0];[1;-1]] (map (fun w => Some (Fin (ln w))) [1/2;1/2]) (Wide 2 mc_answers) = Ok (Some (Fin v)) /\
  mml_loss (mpm_model (-1) q) [[0;0];[1;-1]] (map (fun w => Some (Fin (ln w))) [1/2;1/2]) (Wide 2 mc_answers) = Ok (Some (Fin w)).
Proof.
  destruct mc_net as [m|e] eqn:E; [|vm_compute in E; discriminate]. destruct cubic as [q|e] eqn:F; [|vm_compute in F; discriminate]. unfold mc_net in E. unfold cubic in F.
  assert (HK : Forall (fun K => (1 <= K)%nat) [3;2]%nat) by (repeat constructor; lia).
  destruct (C144_network (-1) [3;2]%nat 2 None (Some [3;6]%nat) (Some [1;0]%nat) true true true m m E ltac:(discriminate) HK ltac:(lia)) as (p & _ & _ & S1 & _).
  { intros h Hh. injection Hh as <-. repeat constructor. }
  { intros k Hk. injection Hk as <-. split; [reflexivity|]. intros [|[|i]] K HK'; cbn in HK'; try (destruct i; discriminate); injection HK' as <-; cbn; lia. }
  { apply same_mnn_refl. }
  destruct (C144_polynomial (-1) [3;2]%nat 2 None 3 false true _ q q F ltac:(discriminate) HK) as (p' & _ & _ & S2 & _).
  { unfold same_mpm. repeat split; auto. }
  pose proof E as E'. pose proof F as F'. unfold mnn_init in E'. cbn in E'. unfold mpm_init in F'. cbn in F'.
  assert (C1 : em_cats (mnn_model (-1) m) = [3;2]%nat) by (injection E' as <-; reflexivity). assert (L1 : em_lv (mnn_model (-1) m) = 2%nat) by (injection E' as <-; reflexivity).
  assert (C2 : em_cats (mpm_model (-1) q) = [3;2]%nat) by (injection F' as <-; reflexivity). assert (L2 : em_lv (mpm_model (-1) q) = 2%nat) by (injection F' as <-; reflexivity).
  exists m, q. unfold em_items in S1, S2. rewrite C1, L1 in S1. rewrite C2, L2 in S2. cbn [length] in S1, S2.
  do 2 eexists. split; [reflexivity|]. split; [reflexivity|]. split.
  - apply S1; [discriminate|discriminate|reflexivity|repeat constructor|repeat constructor; lra|exact mc_legal].
  - apply S2; [discriminate|discriminate|reflexivity|repeat constructor|repeat constructor; lra|exact mc_legal].
Qed.
