(** Property C151: with more respondents the right model wins against models of any class. *)
From Coq Require Import Lra.
From Verif Require T_Flex T_Betw T_Joint T_True T_Cmp.
From Verif Require Import Base BaseFacts RBase RFacts M_Data M_Logit M_Lik M_Est M_Opt M_Jml M_Mono M_Flex P_Mono4 P_Est2 P_True1 P_True2 P_Cons3 P_Cmp P_Cmp2 S_Logit S_Lik S_Est S_Mono S_Item S_True S_Cons S_Max S_Flex S_Betw S_Cmp S_Cmp2.
Import List.
Local Open Scope R_scope.

(** ** C151 *)
(** Respondents are drawn independently, their answers from a model of any class, their scores as a rule says. If they are many, then with a probability as near 1
    as wanted every model of any class that fits the answers at least as well as the truth, with any rule, gives every possible row of answers nearly its true probability. *)
Theorem C151_fit : forall m p points weights s eps,
  estimated_by m p -> rule (em_lv m) points weights -> length s = length (em_cats m) -> 0 < eps ->
  let loss m points weights data := mml_loss m points (map (fun w => Some (Fin (ln w))) weights) (Wide (length (em_cats m)) data) in
  eventually (em_cats m) s (fun row => marginal_likelihood p points weights row / rsum weights) (fun data =>
    forall m' p' points' weights', estimated_by m' p' -> em_cats m' = em_cats m -> rule (em_lv m') points' weights' -> rsum weights' = rsum weights ->
      not_worse (loss m' points' weights' data) (loss m points weights data) ->
      forall row, In row (possible_rows (em_cats m) s) ->
        Rabs (marginal_likelihood p' points' weights' row / rsum weights' - marginal_likelihood p points weights row / rsum weights) < eps).
Proof. intros m p points weights s eps Hm HR HS He loss. exact (any_consistent m p points weights s Hm HR HS eps He). Qed.
Print Assumptions C151_fit.

(** A model of any class that gives some possible row another probability has, with a probability as near 1 as wanted, a higher loss than the true model. *)
Theorem C151_choice : forall m p points weights m' p' points' weights' s row,
  estimated_by m p -> estimated_by m' p' -> em_cats m' = em_cats m -> rule (em_lv m) points weights -> rule (em_lv m') points' weights' -> rsum weights' = rsum weights ->
  length s = length (em_cats m) -> In row (possible_rows (em_cats m) s) -> marginal_likelihood p' points' weights' row <> marginal_likelihood p points weights row ->
  let loss m points weights data := mml_loss m points (map (fun w => Some (Fin (ln w))) weights) (Wide (length (em_cats m)) data) in
  eventually (em_cats m) s (fun row => marginal_likelihood p points weights row / rsum weights) (fun data => better (loss m points weights data) (loss m' points' weights' data)).
Proof. intros m p points weights m' p' points' weights' s row Hm Hm' EC HR HR' EW HS Hrow Hne loss. exact (any_beaten m p points weights s Hm HR HS m' p' points' weights' row Hm' EC HR' EW Hrow Hne). Qed.
Print Assumptions C151_choice.

(** A parametric model and a monotone network that differ in a row: the lower loss tells which of them generated the answers. *)
Theorem C151_network : forall nanl cats lv rel hidden key sep neg bounded m0 net m p,
  mnn_init cats lv rel hidden key sep neg bounded = Ok m0 -> cats <> [] -> Forall (fun K => (1 <= K)%nat) cats -> (0 < lv)%nat ->
  (forall h, hidden = Some h -> Forall (fun x => (0 < x)%nat) h) ->
  (forall k, key = Some k -> length k = length cats /\ forall i K, nth_error cats i = Some K -> (nth i k O < K)%nat) -> same_mnn m0 net ->
  library_model m p -> em_cats m = cats ->
  exists q, reports (mnn_probabilities net) lv cats q /\
  forall s points weights points' weights' row, length s = length cats -> rule (em_lv m) points weights -> rule lv points' weights' -> rsum weights' = rsum weights ->
    In row (possible_rows cats s) -> marginal_likelihood q points' weights' row <> marginal_likelihood p points weights row ->
    let loss m points weights data := mml_loss m points (map (fun w => Some (Fin (ln w))) weights) (Wide (length cats) data) in
    eventually cats s (fun row => marginal_likelihood p points weights row / rsum weights) (fun data => better (loss m points weights data) (loss (mnn_model nanl net) points' weights' data)) /\
    eventually cats s (fun row => marginal_likelihood q points' weights' row / rsum weights') (fun data => better (loss (mnn_model nanl net) points' weights' data) (loss m points weights data)).
Proof.
  intros nanl cats lv rel hidden key sep neg bounded m0 net m p E0 HC HK Hlv Hh Hkey Hs Hm Ecats.
  destruct (T_Joint.C149_network nanl _ _ _ _ _ _ _ _ _ _ E0 HC HK Hlv Hh Hkey Hs) as (sb & q & HP & Hl & He & Hr). exists q. split; [exact Hr|].
  pose proof (T_Betw.C147_library m p Hm) as Hm1.
  assert (Ec : em_cats (mnn_model nanl net) = cats).
  { cbn [mnn_model em_cats]. destruct (mnn_init_ok _ _ _ _ _ _ _ _ _ E0 HC HK Hlv Hh) as (_ & Ec & _). unfold same_mnn in Hs; decompose [and] Hs; congruence. }
  intros s points ws points' ws' row HS HR HR' EW Hrow Hne loss. split.
  - pose proof (C151_choice m p points ws (mnn_model nanl net) q points' ws' s row Hm1 He) as Q. cbv beta zeta in Q. rewrite Ecats, Ec, Hl in Q. now apply Q.
  - pose proof (C151_choice (mnn_model nanl net) q points' ws' m p points ws s row He Hm1) as Q. cbv beta zeta in Q. rewrite Ecats, Ec, Hl in Q. apply Q; auto.
Qed.
Print Assumptions C151_network.

(** One item: the network of C150 gives a right answer a probability other than a one-parameter model with intercept ln 3, or other than one with intercept 0. *)
Example C151_nonvacuous : let F := opl_family 0 1 in
  exists net q b, T_Cmp.one_item_net = Ok net /\ (b = [ln 3] \/ b = [0]) /\ estimated_by (f_model F b) (f_p F b) /\ estimated_by (mnn_model 0 net) q /\
  em_cats (mnn_model 0 net) = em_cats (f_model F b) /\ rule 1 [[0]] [1] /\ In [Some 1%Z] (possible_rows (f_cats F) [true]) /\
  marginal_likelihood q [[0]] [1] [Some 1%Z] <> marginal_likelihood (f_p F b) [[0]] [1] [Some 1%Z].
Proof.
  destruct T_Cmp.C150_exact_nonvacuous as (net & q & E & A1 & A2 & A3 & A4 & _). destruct T_True.C120_nonvacuous as (_ & _ & _ & A5 & _ & _ & _ & A6). cbv zeta in *.
  assert (A0 : estimated_by (f_model (opl_family 0 1) [0]) (f_p (opl_family 0 1) [0])) by (apply T_Betw.C147_library; constructor; [reflexivity|cbn; lia]).
  destruct (Req_EM_T (marginal_likelihood q [[0]] [1] [Some 1%Z]) (marginal_likelihood (f_p (opl_family 0 1) [ln 3]) [[0]] [1] [Some 1%Z])) as [H|H].
  - exists net, q, [0]. split; [exact E|]. split; [now right|]. split; [exact A0|]. split; [exact A2|]. split; [exact A3|]. split; [exact A4|]. split; [rewrite A5; right; now left|]. rewrite H. exact A6.
  - exists net, q, [ln 3]. split; [exact E|]. split; [now left|]. split; [exact A1|]. split; [exact A2|]. split; [exact A3|]. split; [exact A4|]. split; [rewrite A5; right; now left|]. exact H.
Qed.
