(** Property C150: comparing models of any classes by their losses. *)
From Coq Require Import Lra.
From Verif Require T_Flex T_Betw T_Nl T_Joint T_True.
From Verif Require Import Base BaseFacts RBase RFacts M_Data M_Logit M_Lik M_Est M_Opt M_Jml M_Mono M_Flex P_Mono4 P_Est2 P_True1 P_True2 P_Cmp S_Logit S_Lik S_Est S_Mono S_Item S_True S_Max S_Flex S_Betw S_Joint S_Cmp.
Import List.
Local Open Scope R_scope.

(** ** C150 *)
(** Marginal maximum likelihood. Answers come from a model of any class, with scores distributed as a quadrature rule says: on average over the
    possible tables no model of any class has a lower loss than the true one, and only one that gives every row of answers the same probability has as low a one. *)
Theorem C150_marginal : forall m p points weights m' p' points' weights' seen,
  estimated_by m p -> estimated_by m' p' -> em_cats m' = em_cats m -> rule (em_lv m) points weights -> rule (em_lv m') points' weights' -> rsum weights' = rsum weights ->
  seen <> [] -> Forall (fun s => length s = length (em_cats m)) seen ->
  let chance := fun (_ : nat) row => marginal_likelihood p points weights row / rsum weights in
  let loss m points weights data := mml_loss m points (map (fun w => Some (Fin (ln w))) weights) (Wide (length (em_cats m)) data) in
  let average := average_loss (em_cats m) seen chance in
  rsum (map (table_probability chance) (possible_data (em_cats m) seen)) = 1 /\
  always_finite (em_cats m) seen (loss m points weights) /\ always_finite (em_cats m) seen (loss m' points' weights') /\
  average (loss m points weights) <= average (loss m' points' weights') /\
  (average (loss m' points' weights') = average (loss m points weights) <->
   forall s row, In s seen -> In row (possible_rows (em_cats m) s) -> marginal_likelihood p' points' weights' row = marginal_likelihood p points weights row).
Proof.
  intros m p points weights m' p' points' weights' seen Hm Hm' EC HR HR' EW Hne HS chance loss average. split.
  - apply (average_additive (em_cats m) seen chance (fun _ _ => 0)). intros r Hr. apply any_share_total; auto. rewrite Forall_forall in HS. now apply HS, nth_In.
  - split; [exact (proj1 (any_mml_average m p points weights m p points weights seen Hm Hm eq_refl HR HR eq_refl Hne HS))|]. exact (any_mml_average m p points weights m' p' points' weights' seen Hm Hm' EC HR HR' EW Hne HS).
Qed.
Print Assumptions C150_marginal.

(** Data in which every possible row occurs in proportion to its probability: no model of any class has a lower marginal loss, and none that gives the rows other probabilities has as low a one. *)
Theorem C150_exact : forall m p points weights m' p' points' weights' s data,
  estimated_by m p -> estimated_by m' p' -> em_cats m' = em_cats m -> rule (em_lv m) points weights -> rule (em_lv m') points' weights' -> rsum weights' = rsum weights ->
  length s = length (em_cats m) -> data <> [] -> Forall (fun row => In row (possible_rows (em_cats m) s)) data ->
  (forall row, In row (possible_rows (em_cats m) s) -> INR (times data row) = INR (length data) * (marginal_likelihood p points weights row / rsum weights)) ->
  let loss m points weights := mml_loss m points (map (fun w => Some (Fin (ln w))) weights) (Wide (length (em_cats m)) data) in
  exists x x', loss m points weights = Ok (Some (Fin x)) /\ loss m' points' weights' = Ok (Some (Fin x')) /\ x <= x' /\
    (x' = x <-> forall row, In row (possible_rows (em_cats m) s) -> marginal_likelihood p' points' weights' row = marginal_likelihood p points weights row).
Proof. exact any_mml_exact. Qed.
Print Assumptions C150_exact.

(** Joint maximum likelihood, where mixes can take part as well. *)
Theorem C150_joint : forall m p thetas m' p' thetas' seen,
  jointly_by m p -> jointly_by m' p' -> em_cats m' = em_cats m -> length thetas = length seen -> length thetas' = length seen ->
  Forall (fun t => length t = em_lv m) thetas -> Forall (fun t => length t = em_lv m') thetas' -> seen <> [] -> Forall (fun s => length s = length (em_cats m)) seen ->
  let chance := fun r row => likelihood p (nth r thetas []) row in
  let loss m thetas data := jml_loss m (Wide (length (em_cats m)) data) thetas in
  let average := average_loss (em_cats m) seen chance in
  rsum (map (table_probability chance) (possible_data (em_cats m) seen)) = 1 /\
  always_finite (em_cats m) seen (loss m thetas) /\ always_finite (em_cats m) seen (loss m' thetas') /\
  average (loss m thetas) <= average (loss m' thetas') /\
  (average (loss m' thetas') = average (loss m thetas) <->
   forall r i k, (r < length seen)%nat -> nth i (nth r seen []) false = true -> (k < nth i (em_cats m) O)%nat -> p' (nth r thetas' []) i k = p (nth r thetas []) i k).
Proof.
  intros m p thetas m' p' thetas' seen Hm Hm' EC HL HL' HT HT' Hne HS chance loss average. split.
  - apply (average_additive (em_cats m) seen chance (fun _ _ => 0)). intros r Hr. destruct Hm as [D1 _]. apply (any_likelihood_total (em_lv m) (em_cats m) p (nth r seen []) (nth r thetas [])); auto; [rewrite Forall_forall in HT; apply HT, nth_In; lia|]. rewrite Forall_forall in HS. now apply HS, nth_In.
  - split; [exact (proj1 (any_jml_average m p thetas m p thetas seen Hm Hm eq_refl HL HL HT HT Hne HS))|]. exact (any_jml_average m p thetas m' p' thetas' seen Hm Hm' EC HL HL' HT HT' Hne HS).
Qed.
Print Assumptions C150_joint.

(** Which models can take part in joint estimation: the parametric ones, all that are estimated by their probabilities (the flexible and nested ones by C144 to C146), and mixes of these. *)
Theorem C150_classes :
  (forall m p, library_model m p -> jointly_by m p) /\ (forall m p, estimated_by m p -> jointly_by m p) /\
  (forall lv parts subs, made_of lv parts subs -> jointly_by (of_mix lv subs) (joined (parts_of parts))).
Proof.
  assert (E : forall m p, estimated_by m p -> jointly_by m p) by (intros m p [D (_ & S2 & _)]; split; [exact D|]; intros thetas data H1 H2 H3 H4; now apply S2).
  split; [intros m p H; apply E; now apply T_Betw.C147_library|]. split; [exact E|].
  intros lv parts subs HM. split; [exact (T_Joint.C149_distributions lv parts subs HM)|]. intros thetas data H1 H2 H3 H4. exact (proj1 (T_Joint.C149_joint lv parts subs HM thetas data H1 H2 H3 H4)).
Qed.
Print Assumptions C150_classes.

(** A parametric model and a monotone network, both ways: each is on average at least as good as the other, by either loss, for answers that it generates itself. *)
Theorem C150_network : forall nanl cats lv rel hidden key sep neg bounded m0 net m p,
  mnn_init cats lv rel hidden key sep neg bounded = Ok m0 -> cats <> [] -> Forall (fun K => (1 <= K)%nat) cats -> (0 < lv)%nat ->
  (forall h, hidden = Some h -> Forall (fun x => (0 < x)%nat) h) ->
  (forall k, key = Some k -> length k = length cats /\ forall i K, nth_error cats i = Some K -> (nth i k O < K)%nat) -> same_mnn m0 net ->
  library_model m p -> em_cats m = cats ->
  exists q, reports (mnn_probabilities net) lv cats q /\
  forall seen, seen <> [] -> Forall (fun s => length s = length cats) seen ->
  (forall points weights points' weights', rule (em_lv m) points weights -> rule lv points' weights' -> rsum weights' = rsum weights ->
    let loss m points weights data := mml_loss m points (map (fun w => Some (Fin (ln w))) weights) (Wide (length cats) data) in
    average_loss cats seen (fun _ row => marginal_likelihood p points weights row / rsum weights) (loss m points weights) <=
      average_loss cats seen (fun _ row => marginal_likelihood p points weights row / rsum weights) (loss (mnn_model nanl net) points' weights') /\
    average_loss cats seen (fun _ row => marginal_likelihood q points' weights' row / rsum weights') (loss (mnn_model nanl net) points' weights') <=
      average_loss cats seen (fun _ row => marginal_likelihood q points' weights' row / rsum weights') (loss m points weights)) /\
  (forall thetas thetas', length thetas = length seen -> length thetas' = length seen -> Forall (fun t => length t = em_lv m) thetas -> Forall (fun t => length t = lv) thetas' ->
    let loss m thetas data := jml_loss m (Wide (length cats) data) thetas in
    average_loss cats seen (fun r => likelihood p (nth r thetas [])) (loss m thetas) <= average_loss cats seen (fun r => likelihood p (nth r thetas [])) (loss (mnn_model nanl net) thetas') /\
    average_loss cats seen (fun r => likelihood q (nth r thetas' [])) (loss (mnn_model nanl net) thetas') <= average_loss cats seen (fun r => likelihood q (nth r thetas' [])) (loss m thetas)).
Proof.
  intros nanl cats lv rel hidden key sep neg bounded m0 net m p E0 HC HK Hlv Hh Hkey Hs Hm Ecats.
  destruct (T_Joint.C149_network nanl _ _ _ _ _ _ _ _ _ _ E0 HC HK Hlv Hh Hkey Hs) as (s & q & HP & Hl & He & Hr). exists q. split; [exact Hr|].
  pose proof (T_Betw.C147_library m p Hm) as Hm1. destruct C150_classes as (_ & J & _). pose proof (J _ _ He) as Hj. pose proof (J _ _ Hm1) as Hmj.
  assert (Ec : em_cats (mnn_model nanl net) = cats).
  { cbn [mnn_model em_cats]. destruct (mnn_init_ok _ _ _ _ _ _ _ _ _ E0 HC HK Hlv Hh) as (_ & Ec & _). unfold same_mnn in Hs; decompose [and] Hs; congruence. }
  intros seen Hne HS. split.
  - intros points ws points' ws' HR HR' EW loss. split.
    + pose proof (C150_marginal m p points ws (mnn_model nanl net) q points' ws' seen Hm1 He) as Q. cbv beta zeta in Q. rewrite Ecats, Ec, Hl in Q. now apply Q.
    + pose proof (C150_marginal (mnn_model nanl net) q points' ws' m p points ws seen He Hm1) as Q. cbv beta zeta in Q. rewrite Ecats, Ec, Hl in Q. now apply Q.
  - intros thetas thetas' HL HL' HT HT' loss. split.
    + pose proof (C150_joint m p thetas (mnn_model nanl net) q thetas' seen Hmj Hj) as Q. cbv beta zeta in Q. rewrite Ecats, Ec, Hl in Q. now apply Q.
    + pose proof (C150_joint (mnn_model nanl net) q thetas' m p thetas seen Hj Hmj) as Q. cbv beta zeta in Q. rewrite Ecats, Ec, Hl in Q. now apply Q.
Qed.
Print Assumptions C150_network.

(** A mix of a two-parameter model and a nominal one against a mix with a network in the place of the nominal model: the same four items; and the nominal model against the network. *)
Example C150_nonvacuous : exists net s parts parts', T_Flex.mc_net = Ok net /\
  let mix := of_mix 2 [tpl_sub (-1) T_Nl.nl_right; nrm_sub (-1) T_Nl.nl_wrong] in let mix' := of_mix 2 [tpl_sub (-1) T_Nl.nl_right; s] in
  made_of 2 parts [tpl_sub (-1) T_Nl.nl_right; nrm_sub (-1) T_Nl.nl_wrong] /\ made_of 2 parts' [tpl_sub (-1) T_Nl.nl_right; s] /\
  jointly_by mix (joined (parts_of parts)) /\ jointly_by mix' (joined (parts_of parts')) /\ em_cats mix = [2;2;3;2]%nat /\ em_cats mix' = em_cats mix /\
  library_model (of_sub (nrm_sub (-1) T_Nl.nl_wrong)) (nrm_p T_Nl.nl_wrong) /\ em_cats (of_sub (nrm_sub (-1) T_Nl.nl_wrong)) = em_cats (mnn_model (-1) net) /\
  rule 2 [[0;0];[1;-1]] [1/2;1/2] /\ length (possible_data [3;2]%nat [[true;true];[false;true]]) = 12%nat.
Proof.
  destruct T_Flex.mc_net as [net|e] eqn:E; [|vm_compute in E; discriminate]. pose proof E as E'. unfold T_Flex.mc_net in E'.
  destruct (T_Joint.C149_network (-1) [3;2]%nat 2 None (Some [3;6]%nat) (Some [1;0]%nat) true true true net net E') as (s & p & HP & Hl & He & _).
  { discriminate. } { constructor; [lia|constructor; [lia|constructor]]. } { lia. } { intros h Eh. injection Eh as <-. constructor; [lia|constructor; [lia|constructor]]. }
  { intros k Ek. injection Ek as <-. split; [reflexivity|]. intros [|[|i]] K Ei; cbn in Ei; try (injection Ei as <-; cbn; lia). destruct i; discriminate. }
  { apply same_mnn_refl. }
  destruct (proj1 (proj2 (T_Joint.C149_parametric (-1)))  T_Nl.nl_right) as [HT1 HT2]; [apply T_Nl.nl_right_wf|cbn; lia|].
  destruct (proj2 (proj2 (proj2 (proj2 (T_Joint.C149_parametric (-1)))))  T_Nl.nl_wrong) as [HN1 HN2]; [apply T_Nl.nl_wrong_wf|cbn; lia|].
  assert (HM : made_of 2 [(of_sub (tpl_sub (-1) T_Nl.nl_right), tpl_p T_Nl.nl_right); (mnn_model (-1) net, p)] [tpl_sub (-1) T_Nl.nl_right; s]).
  { split; [discriminate|]. constructor; [split; [exact HT1|split; [reflexivity|exact HT2]]|]. constructor; [split; [exact HP|split; [exact Hl|exact He]]|constructor]. }
  assert (HM0 : made_of 2 [(of_sub (tpl_sub (-1) T_Nl.nl_right), tpl_p T_Nl.nl_right); (of_sub (nrm_sub (-1) T_Nl.nl_wrong), nrm_p T_Nl.nl_wrong)] [tpl_sub (-1) T_Nl.nl_right; nrm_sub (-1) T_Nl.nl_wrong]).
  { split; [discriminate|]. constructor; [split; [exact HT1|split; [reflexivity|exact HT2]]|]. constructor; [split; [exact HN1|split; [reflexivity|exact HN2]]|constructor]. }
  assert (EN : em_cats (mnn_model (-1) net) = [3;2]%nat). { cbn [mnn_model em_cats]. vm_compute in E'. injection E' as <-. reflexivity. }
  assert (EC : sb_cats s = [3;2]%nat) by (destruct HP as (_ & -> & _); exact EN).
  exists net, s. eexists. eexists. split; [reflexivity|]. cbv zeta. split; [exact HM0|]. split; [exact HM|]. destruct C150_classes as (_ & _ & J). split; [exact (J _ _ _ HM0)|]. split; [exact (J _ _ _ HM)|].
  split; [reflexivity|]. split; [cbn [of_mix em_cats map concat]; rewrite EC; reflexivity|]. split; [constructor; [apply T_Nl.nl_wrong_wf|cbn; lia]|]. split; [rewrite EN; reflexivity|].
  split; [|reflexivity]. split; [discriminate|]. split; [reflexivity|]. split; [constructor; [reflexivity|constructor; [reflexivity|constructor]]|]. constructor; [lra|constructor; [lra|constructor]].
Qed.
(** Four answers to one item, three of them right, which a one-parameter model with intercept ln 3 gives in proportion, and a network for the same item. *)
Definition one_item_net := mnn_init [2]%nat 1 None (Some [3;3]%nat) None true true true.
Example C150_exact_nonvacuous : let data := [[Some 1%Z]; [Some 0%Z]; [Some 1%Z]; [Some 1%Z]] in let F := opl_family 0 1 in
  exists net q, one_item_net = Ok net /\ estimated_by (f_model F [ln 3]) (f_p F [ln 3]) /\ estimated_by (mnn_model 0 net) q /\ em_cats (mnn_model 0 net) = em_cats (f_model F [ln 3]) /\
  rule 1 [[0]] [1] /\ Forall (fun row => In row (possible_rows (f_cats F) [true])) data /\
  (forall row, In row (possible_rows (f_cats F) [true]) -> INR (times data row) = INR (length data) * (marginal_likelihood (f_p F [ln 3]) [[0]] [1] row / rsum [1])).
Proof.
  destruct one_item_net as [net|e] eqn:E; [|vm_compute in E; discriminate]. pose proof E as E'. unfold one_item_net in E'.
  destruct (T_Joint.C149_network 0 [2]%nat 1 None (Some [3;3]%nat) None true true true net net E') as (s & q & _ & _ & He & _).
  { discriminate. } { constructor; [lia|constructor]. } { lia. } { intros h Eh. injection Eh as <-. constructor; [lia|constructor; [lia|constructor]]. } { intros k Ek. discriminate. } { apply same_mnn_refl. }
  destruct T_True.C120_nonvacuous as (A1 & A2 & _ & _ & A5 & A6 & _).
  exists net, q. split; [reflexivity|]. split; [now apply T_Betw.C147_library|]. split; [exact He|]. split; [cbn [mnn_model em_cats]; vm_compute in E'; injection E' as <-; reflexivity|]. split; [exact A2|]. split; [exact A5|exact A6].
Qed.
