(** Property C146: NestedLogit is estimated and scored by the probabilities it reports. *)
From Coq Require Import Lra.
From Verif Require T_Flex.
From Verif Require Import Base BaseFacts RBase RFacts M_Data M_CV M_Logit M_Lik M_Est M_Opt M_Jml M_Mono M_BSpl M_Nl P_Data P_Logit P_Logit3 P_Mono4 P_Mono5 P_Lik5 P_BSpl3 P_BSpl4 P_Tab P_Nest1 P_Info2 P_Info3 P_Nl S_Logit S_Lik S_Est S_Eap S_Mono S_BSpl S_Flex S_Nl.
Import List.
Local Open Scope R_scope.

(** ** C146 *)
(** Whatever the two parts are, as long as each reports probabilities: the right answer gets the chance of a right answer, each wrong one the
    chance of a wrong answer times its share, and estimation and scoring use these numbers. *)
Theorem C146_parts : forall nanl lv cats key right wrong c q, cats <> [] -> length key = length cats ->
  (forall i K, nth_error cats i = Some K -> (2 <= K)%nat /\ (nth i key O < K)%nat) ->
  tabulates lv (length cats) 2 right c -> distributions lv (repeat 2%nat (length cats)) c ->
  tabulates lv (length cats) (list_max cats - 1) wrong q -> distributions lv (map pred cats) q ->
  reports (nl_probabilities cats key right wrong) lv cats (nested_chances key c q) /\ distributions lv cats (nested_chances key c q) /\
  scored_by (nl_model nanl lv cats key right wrong) (nested_chances key c q).
Proof.
  intros nanl lv cats key right wrong c q HC HL HK T1 D1 T2 D2.
  pose proof (nested_distribution lv cats key c q HL HK D1 D2) as HD.
  set (M := list_max cats) in *. assert (HK1 : Forall (fun K => (1 <= K)%nat) cats).
  { apply Forall_forall. intros K Hin. apply In_nth_error in Hin as [i Hi]. destruct (HK i K Hi). lia. }
  assert (HM : (0 < M)%nat) by (now apply list_max_pos).
  assert (Hkey : Forall (fun k => (k < M)%nat) key).
  { apply Forall_forall. intros k Hin. apply In_nth_error in Hin as [i Hi]. assert (i < length key)%nat by (apply nth_error_Some; congruence).
    destruct (nth_error cats i) as [K|] eqn:EK; [|apply nth_error_None in EK; lia]. destruct (HK i K EK) as [_ H']. rewrite (nth_error_nth _ _ O Hi) in H'.
    assert (K <= M)%nat by (apply list_max_bound; eapply nth_error_In; eauto). lia. }
  assert (HF : forall thetas, thetas <> [] -> Forall (fun t => length t = lv) thetas -> nl_forward M key right wrong thetas = Ok (some3 (map (nl_row M key c q) thetas))).
  { intros thetas Hne Hs. apply (nl_forward_rows M lv); auto; now rewrite HL. }
  assert (EP : forall t i K k, nth_error cats i = Some K -> (k < K)%nat -> table_p (nl_row M key c q) t i k = nested_chances key c q t i k).
  { intros t i K k Hi Hk. assert (i < length cats)%nat by (apply nth_error_Some; congruence). assert (K <= M)%nat by (apply list_max_bound; eapply nth_error_In; eauto). apply nl_row_p; lia. }
  set (m' := EModel lv cats (fun thetas => Ok (T3 (Cube (length cats) M (some3 (map (nl_row M key c q) thetas))))) (em_ll (nl_model nanl lv cats key right wrong))).
  assert (LT : forall t, length (nl_row M key c q t) = length cats /\ Forall (fun r => length r = M) (nl_row M key c q t)).
  { intro t. unfold nl_row. rewrite map_length, seq_length. split; [exact HL|]. apply Forall_forall. intros r Hr. apply in_map_iff in Hr as (i & <- & _). now rewrite map_length, seq_length. }
  assert (HD' : distributions lv cats (table_p (nl_row M key c q))).
  { intros t i K Ht Hi. destruct (HD t i K Ht Hi) as [A B]. split; [intros k Hk; rewrite (EP t i K k Hi Hk); auto|]. rewrite <- B. apply sumn_ext. intros k Hk. now apply (EP t i K). }
  split; [|split; [exact HD|]].
  - intros thetas Hne Hs. unfold nl_probabilities. fold M. rewrite HF by assumption. eexists. split; [reflexivity|]. intros r t i K k Hr Hi Hk.
    rewrite <- (EP t i K k Hi Hk). eapply (table_at m' (nl_row M key c q)) with (K := K); eauto.
  - assert (S' : scored_by (nl_model nanl lv cats key right wrong) (table_p (nl_row M key c q))).
    { apply (agree_scored (nl_model nanl lv cats key right wrong) m'); try reflexivity.
      + intros thetas Hne Hs. cbn [nl_model em_forward m']. fold M. now rewrite HF.
      + apply T_Flex.scored; [| | | |exact HD'].
        * eapply (table_have_probabilities m' nanl (nl_row M key c q)); eauto.
        * eapply (table_sum m' nanl (nl_row M key c q)); eauto.
        * eapply (table_rowwise m' (nl_row M key c q)); eauto.
        * apply T_Flex.items_positive. exact HC. }
    assert (EL : forall t row, legal_row cats row -> likelihood (table_p (nl_row M key c q)) t row = likelihood (nested_chances key c q) t row).
    { intros t row [HLr HR]. unfold likelihood. f_equal. apply nth_error_ext. intro i. rewrite !nth_error_mapi. destruct (nth_error row i) as [x|] eqn:Ex; [|reflexivity]. cbn [option_map]. f_equal.
      destruct (answer x) as [k|] eqn:E; [|reflexivity]. destruct (nth_error cats i) as [K|] eqn:EK; [|apply nth_error_None in EK; assert (i < length row)%nat by (apply nth_error_Some; congruence); lia].
      apply (EP t i K k EK). destruct (HR i x Ex) as [-> |[-> |(j & -> & Hj)]]; cbn in E; try discriminate. unfold answer in E. destruct (Z.eqb_spec (Z.of_nat j) (-1)); [lia|]. injection E as <-. rewrite Nat2Z.id. now rewrite (nth_error_nth _ _ O EK) in Hj. }
    destruct S' as (S1 & S2 & S3 & S4). cbn [nl_model em_lv em_cats] in S1, S2, S3, S4. unfold scored_by. cbn [nl_model em_lv em_cats] in *. split; [|split; [|split]].
    + intros points ws data Hp Hd Hl Hs Hw HG. rewrite S1 by assumption. do 5 f_equal. apply map_ext_in. intros row Hin. do 2 f_equal.
      unfold legal_data in HG; rewrite Forall_forall in HG. assert (E : forall w t, w * likelihood (table_p (nl_row M key c q)) t row = w * likelihood (nested_chances key c q) t row) by (intros; now rewrite EL by auto).
      clear -E. revert points. induction ws as [|w ws IH]; intros [|t points]; cbn; auto. now rewrite E, IH.
    + intros thetas data Hd Hs Hl HG. destruct (S2 thetas data Hd Hs Hl HG) as [E1 E2].
      assert (E : forall n, (n < length data)%nat -> likelihood (table_p (nl_row M key c q)) (nth n thetas []) (nth n data []) = likelihood (nested_chances key c q) (nth n thetas []) (nth n data [])).
      { intros n Hn. apply EL. unfold legal_data in HG; rewrite Forall_forall in HG. apply HG. now apply nth_In. }
      split; [rewrite E1|intro lp; rewrite E2]; do 4 f_equal; apply sumn_ext; intros n Hn; now rewrite E by exact Hn.
    + cbv zeta. intros mvn a scores logpdf points Hlv Ha Hne Hm Hg. destruct (S3 mvn a scores logpdf points Hlv Ha Hne Hm Hg) as (grid & G1 & G2). exists grid. split; [exact G1|]. intros data Hd HG.
      rewrite G2 by assumption. f_equal. apply map_ext_in. intros row Hin. unfold legal_data in HG; rewrite Forall_forall in HG. apply map_ext. intro d.
      assert (X1 : map (fun t => nth d t 0 * (exp (logpdf t) * likelihood (table_p (nl_row M key c q)) t row)) grid = map (fun t => nth d t 0 * (exp (logpdf t) * likelihood (nested_chances key c q) t row)) grid) by (apply map_ext; intro t; now rewrite EL by auto).
      assert (X2 : map (fun t => exp (logpdf t) * likelihood (table_p (nl_row M key c q)) t row) grid = map (fun t => exp (logpdf t) * likelihood (nested_chances key c q) t row) grid) by (apply map_ext; intro t; now rewrite EL by auto).
      now rewrite X1, X2.
    + cbv zeta. intros mvn logpdf points Hlv Hm Hg. destruct (S4 mvn logpdf points Hlv Hm Hg) as (grid & G1 & G2). exists grid. split; [exact G1|]. intros data Hd HG.
      rewrite G2 by assumption. f_equal. apply map_ext_in. intros row Hin. unfold legal_data in HG; rewrite Forall_forall in HG. apply map_ext. intro d.
      assert (X1 : map (fun t => nth d t 0 * (exp (logpdf t) * likelihood (table_p (nl_row M key c q)) t row)) grid = map (fun t => nth d t 0 * (exp (logpdf t) * likelihood (nested_chances key c q) t row)) grid) by (apply map_ext; intro t; now rewrite EL by auto).
      assert (X2 : map (fun t => exp (logpdf t) * likelihood (table_p (nl_row M key c q)) t row) grid = map (fun t => exp (logpdf t) * likelihood (nested_chances key c q) t row) grid) by (apply map_ext; intro t; now rewrite EL by auto).
      now rewrite X1, X2.
Qed.
Print Assumptions C146_parts.
(** Of those who answer wrongly, each wrong answer is given by its share, whatever the chance of a right answer. *)
Theorem C146_shares : forall lv cats key c q t i K, distributions lv (repeat 2%nat (length cats)) c -> length t = lv -> nth_error cats i = Some K ->
  nested_chances key c q t i (nth i key O) = c t i 1%nat /\ 0 < 1 - c t i 1%nat /\
  (forall j, (j < K - 1)%nat -> let k := if (j <? nth i key O)%nat then j else S j in
     k <> nth i key O /\ nested_chances key c q t i k / (1 - nested_chances key c q t i (nth i key O)) = q t i j).
Proof.
  intros lv cats key c q t i K D Ht Hi. assert (Hil : (i < length cats)%nat) by (apply nth_error_Some; congruence).
  destruct (D t i 2%nat Ht) as [P HS]; [now apply nth_error_repeat_lt|]. cbn in HS. pose proof (P 0%nat ltac:(lia)) as P0.
  assert (E1 : nested_chances key c q t i (nth i key O) = c t i 1%nat) by (unfold nested_chances; now rewrite Nat.eqb_refl).
  split; [exact E1|]. split; [lra|]. intros j Hj k. assert (Hne : k <> nth i key O) by (unfold k; destruct (Nat.ltb_spec j (nth i key O)); lia). split; [exact Hne|].
  rewrite E1. unfold nested_chances. destruct (Nat.eqb_spec k (nth i key O)); [contradiction|]. replace (among_wrong (nth i key O) k) with j.
  - replace (1 - c t i 1%nat) with (c t i 0%nat) by lra. field. lra.
  - unfold among_wrong, k. destruct (Nat.ltb_spec j (nth i key O)); [destruct (Nat.ltb_spec j (nth i key O)); lia|]. destruct (Nat.ltb_spec (S j) (nth i key O)); lia.
Qed.
Print Assumptions C146_shares.
(** The two parameter model for right answers and the nominal model for wrong ones. *)
Theorem C146_nominal : forall nanl m n cats key, tpl_wf m -> nrm_wf n -> nrm_lv n = tpl_lv m -> tpl_items m = length cats -> nrm_cats n = map pred cats -> cats <> [] -> length key = length cats ->
  (forall i K, nth_error cats i = Some K -> (2 <= K)%nat /\ (nth i key O < K)%nat) ->
  exists c q, tabulates (tpl_lv m) (length cats) 2 (fun thetas => Ok (tpl_probabilities m thetas)) c /\ tabulates (tpl_lv m) (length cats) (list_max cats - 1) (nominal_wrong n) q /\
    let p := nested_chances key c q in let right := fun thetas => Ok (tpl_probabilities m thetas) in
    reports (nl_probabilities cats key right (nominal_wrong n)) (tpl_lv m) cats p /\ distributions (tpl_lv m) cats p /\
    scored_by (nl_model nanl (tpl_lv m) cats key right (nominal_wrong n)) p.
Proof.
  intros nanl m n cats key Hm Hn Elv Ei Ec HC HL HK. assert (Hpos : (0 < length cats)%nat) by (apply T_Flex.items_positive; exact HC).
  assert (HK1 : Forall (fun K => (1 <= K)%nat) cats) by (apply Forall_forall; intros K Hin; apply In_nth_error in Hin as [i Hi]; destruct (HK i K Hi); lia).
  assert (T1 : tabulates (tpl_lv m) (length cats) 2 (fun thetas => Ok (tpl_probabilities m thetas)) (soft (repeat 2%nat (tpl_items m)) (fun t i => two_z (tpl_x m t i)))).
  { apply model_tabulates. rewrite <- Ei. apply tpl_table; [exact Hm|now rewrite Ei]. }
  assert (T2 : tabulates (tpl_lv m) (length cats) (list_max cats - 1) (nominal_wrong n) (soft (nrm_cats n) (nrm_z n))).
  { pose proof (nrm_table n Hn) as X. unfold nrm_max in X. rewrite Elv, Ec, map_length, max_pred in X by exact HK1. rewrite Ec. apply (model_tabulates (tpl_lv m) (length cats) (list_max cats - 1) (nrm_probabilities n)). now apply X. }
  do 2 eexists. split; [exact T1|]. split; [exact T2|]. cbv zeta. apply C146_parts; auto.
  - rewrite Ei. apply soft_distribution. apply twos_pos.
  - rewrite <- Ec. apply soft_distribution. apply Hn.
Qed.
Print Assumptions C146_nominal.
(** Any model for right answers with splines for the wrong ones, without a stored basis. *)
Theorem C146_splines : forall nanl m right c, ns_basis m = None -> (0 < ns_lv m)%nat -> ns_cats m <> [] -> length (ns_key m) = length (ns_cats m) ->
  (forall i K, nth_error (ns_cats m) i = Some K -> (2 <= K)%nat /\ (nth i (ns_key m) O < K)%nat) ->
  tabulates (ns_lv m) (length (ns_cats m)) 2 right c -> distributions (ns_lv m) (repeat 2%nat (length (ns_cats m))) c ->
  exists q, distributions (ns_lv m) (map pred (ns_cats m)) q /\ let p := nested_chances (ns_key m) c q in
    reports (ns_forward m right) (ns_lv m) (ns_cats m) p /\ distributions (ns_lv m) (ns_cats m) p /\
    scored_by (nl_model nanl (ns_lv m) (ns_cats m) (ns_key m) right (spline_wrong m)) p.
Proof.
  intros nanl m right c Hb Hlv HC HL HK T1 D1.
  assert (HK2 : Forall (fun K => (2 <= K)%nat) (ns_cats m)) by (apply Forall_forall; intros K Hin; apply In_nth_error in Hin as [i Hi]; destruct (HK i K Hi); lia).
  assert (D2 : distributions (ns_lv m) (map pred (ns_cats m)) (soft (map pred (ns_cats m)) (ns_z m))).
  { apply soft_distribution. apply Forall_forall. intros K Hin. apply in_map_iff in Hin as (K0 & <- & H0). rewrite Forall_forall in HK2. specialize (HK2 K0 H0). cbv beta in HK2. lia. }
  eexists. split; [exact D2|]. cbv zeta. pose proof (C146_parts nanl (ns_lv m) (ns_cats m) (ns_key m) right (spline_wrong m) c _ HC HL HK T1 D1 (spline_tabulates m Hb Hlv HK2) D2) as (A & B & C).
  split; [|split; [exact B|exact C]]. intros thetas Hne HF. rewrite spline_forward. now apply A.
Qed.
Print Assumptions C146_splines.
(** Two items of four and three categories, right answers 2 and 0: the marginal loss of two rows, one with a missing answer, is a number with nominal and
    with spline distractors. *)
Definition nl_right : tpl := {| tpl_lv := 2; tpl_free := [[true; false]; [true; true]]; tpl_w := [2; -1; 3]; tpl_b := [1; -2] |}.
Definition nl_wrong : nrm := {| nrm_cats := [3; 2]%nat; nrm_lv := 2; nrm_rel := [[true; false]; [true; true]]; nrm_w := [1; 2; -1; 3]; nrm_b := [1; -2; 0] |}.
Definition nl_spline : nspl := {| ns_cats := [4; 3]%nat; ns_key := [2; 0]%nat; ns_lv := 2; ns_rel := fun i d => (d <=? i)%nat; ns_degree := 3;
  ns_knots := knot_vector 3 None; ns_coef := fun i d b k => INR b - INR k; ns_basis := None |}.
Definition nl_answers : list (list cell) := [[Some 2%Z; Some 1%Z]; [Some 3%Z; None]].
Lemma nl_right_wf : tpl_wf nl_right.
Proof. split; [cbn; lia|]. split; [constructor; [reflexivity|constructor; [reflexivity|constructor]]|]. split; reflexivity. Qed.
Lemma nl_wrong_wf : nrm_wf nl_wrong.
Proof. split; [cbn; lia|]. split; [constructor; [lia|constructor; [lia|constructor]]|]. split; [reflexivity|]. split; [constructor; [reflexivity|constructor; [reflexivity|constructor]]|]. split; reflexivity. Qed.
Lemma nl_keyed : forall i K, nth_error [4;3]%nat i = Some K -> (2 <= K)%nat /\ (nth i [2;0]%nat O < K)%nat.
Proof. intros [|[|[|i]]] K H; cbn in H; try discriminate; injection H as <-; cbn; lia. Qed.
Lemma nl_legal : legal_data [4;3]%nat nl_answers.
Proof.
  apply Forall_forall. intros row [<-|[<-|[]]]; (split; [reflexivity|]); intros i c Hc; destruct i as [|[|[|i]]]; cbn in Hc; try discriminate; injection Hc as <-; cbn.
  - right. right. exists 2%nat. split; [reflexivity|lia].
  - right. right. exists 1%nat. split; [reflexivity|lia].
  - right. right. exists 3%nat. split; [reflexivity|lia].
  - now left.
Qed.
Example C146_nonvacuous : exists v w,
  mml_loss (nl_model (-1) 2 [4;3]%nat [2;0]%nat (fun thetas => Ok (tpl_probabilities nl_right thetas)) (nominal_wrong nl_wrong)) [[0;0];[1;-1]] (map (fun w => Some (Fin (ln w))) [1/2;1/2]) (Wide 2 nl_answers) = Ok (Some (Fin v)) /\
  mml_loss (nl_model (-1) 2 [4;3]%nat [2;0]%nat (fun thetas => Ok (tpl_probabilities nl_right thetas)) (spline_wrong nl_spline)) [[0;0];[1;-1]] (map (fun w => Some (Fin (ln w))) [1/2;1/2]) (Wide 2 nl_answers) = Ok (Some (Fin w)).
Proof.
  destruct (C146_nominal (-1) nl_right nl_wrong [4;3]%nat [2;0]%nat nl_right_wf nl_wrong_wf eq_refl eq_refl eq_refl ltac:(discriminate) eq_refl nl_keyed) as (c & q & T1 & T2 & _ & _ & S1 & _).
  assert (T3 : tabulates 2 2 2 (fun thetas => Ok (tpl_probabilities nl_right thetas)) (soft (repeat 2%nat 2) (fun t i => two_z (tpl_x nl_right t i)))) by (apply model_tabulates; apply (tpl_table nl_right nl_right_wf); cbn; lia).
  destruct (C146_splines (-1) nl_spline (fun thetas => Ok (tpl_probabilities nl_right thetas)) _ eq_refl ltac:(cbn; lia) ltac:(discriminate) eq_refl nl_keyed T3 (soft_distribution _ _ _ (twos_pos 2))) as (q' & _ & _ & _ & S2 & _).
  do 2 eexists. split.
  - apply (S1 [[0;0];[1;-1]] [1/2;1/2] nl_answers); [discriminate|discriminate|reflexivity|repeat constructor|repeat constructor; lra|exact nl_legal].
  - apply (S2 [[0;0];[1;-1]] [1/2;1/2] nl_answers); [discriminate|discriminate|reflexivity|repeat constructor|repeat constructor; lra|exact nl_legal].
Qed.
