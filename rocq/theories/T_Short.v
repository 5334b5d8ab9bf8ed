(** Property C143: short forms of a test. *)
From Verif Require T_Est T_Sym.
From Verif Require Import Base BaseFacts RBase RFacts M_Data M_CV M_Logit M_Lik M_Est M_Opt M_Jml P_Data P_Logit P_Est1 P_Est2 P_Est3 P_Opt3 P_Stat4 P_Sym1 P_Sym2 P_Sym3 P_Sym4 P_Short S_Logit S_Lik S_Est S_Sym S_Short.
Import List.
From Coq Require Import Permutation.
Local Open Scope R_scope.

(** The model of some of the items, in any order, with the parameters they have in the whole test: the probabilities of these items are the same, and for
    respondents who answered no other item the marginal loss, the joint loss, the loss minimised for ML and MAP scores (any [prior]) and the EAP scores are
    those of the whole test.  The columns of the other items may be NaN or -1 in the whole test. *)
Theorem C143_short_form : forall nanl x keep, well_formed x -> let m := model_of nanl x in let m' := model_of nanl (short keep x) in
  selection keep (em_items m) ->
  em_items m' = length keep /\ em_lv m' = em_lv m /\ em_cats m' = map (fun i => nth i (em_cats m) O) keep /\
  (forall t i k, (i < length keep)%nat -> (k < nth (nth i keep O) (em_cats m) O)%nat -> chances (short keep x) t i k = chances x t (nth i keep O) k) /\
  library_model m' (chances (short keep x)) /\
  forall data, legal_data (em_cats m) data -> only keep data -> let data' := map (fun row => map (fun i => nth i row None) keep) data in
  legal_data (em_cats m') data' /\
  (forall points weights, points <> [] -> length weights = length points -> Forall (fun t => length t = em_lv m) points -> Forall (fun w => 0 < w) weights ->
     mml_loss m' points (map (fun w => Some (Fin (ln w))) weights) (Wide (length keep) data') = mml_loss m points (map (fun w => Some (Fin (ln w))) weights) (Wide (em_items m) data)) /\
  (forall thetas, length thetas = length data -> Forall (fun t => length t = em_lv m) thetas ->
     jml_loss m' (Wide (length keep) data') thetas = jml_loss m (Wide (em_items m) data) thetas /\
     forall prior, scoring_loss m' prior (Wide (length keep) data') thetas = scoring_loss m prior (Wide (em_items m) data) thetas) /\
  (forall mvn a points, (0 < match points with Some g => g | None => eap_default_points (em_lv m) end)%nat -> data <> [] ->
     eap_theta_scores mvn m' a points (Wide (length keep) data') = eap_theta_scores mvn m a points (Wide (em_items m) data)).
Proof.
  intros nanl x keep H m m' HS. assert (EC : em_cats m = cats_of x) by apply model_cats. assert (HI : em_items m = length (cats_of x)) by (unfold em_items; now rewrite EC). rewrite HI in HS.
  assert (HW : within keep (length (cats_of x))) by (destruct HS as (S1 & _ & S3); split; assumption).
  assert (H' : well_formed (short keep x)) by (now apply short_well_formed). assert (EC' : em_cats m' = pick keep (cats_of x) O) by (unfold m'; rewrite model_cats; now apply short_cats).
  assert (HM : library_model m (chances x)) by (now apply model_library). assert (HM' : library_model m' (chances (short keep x))) by (now apply model_library).
  assert (EI : em_items m' = length keep) by (unfold em_items; rewrite EC', pick_length; reflexivity). assert (EL : em_lv m' = em_lv m) by (unfold m, m'; rewrite !model_lv; destruct x; reflexivity).
  split; [exact EI|]. split; [exact EL|]. split; [rewrite EC', EC; reflexivity|]. split; [intros t i k Hi Hk; rewrite EC in Hk; now apply short_chances|]. split; [exact HM'|].
  intros data HD HO data'. rewrite EC in HD. assert (HD' : legal_data (em_cats m') data') by (rewrite EC'; now apply short_legal_data).
  assert (HLk : forall t row, In row data -> likelihood (chances (short keep x)) t (pick keep row None) = likelihood (chances x) t row).
  { intros t row Hr. apply only_likelihood; auto; [exact (proj1 (Forall_forall _ _) HD row Hr)|exact (proj1 (Forall_forall _ _) HO row Hr)]. }
  split; [exact HD'|]. assert (SC : forall thetas prior, length thetas = length data -> Forall (fun t => length t = em_lv m) thetas -> scoring_loss m' prior (Wide (length keep) data') thetas = scoring_loss m prior (Wide (em_items m) data) thetas).
  { intros thetas prior H1 H2. assert (LD : length data' = length data) by (unfold data'; apply map_length). rewrite <- EI.
    rewrite (scoring_loss_value m' (chances (short keep x))) by (solve [assumption|now rewrite EL|congruence]). rewrite (scoring_loss_value m (chances x)) by (auto; now rewrite EC). rewrite LD. do 4 f_equal.
    apply sumn_ext. intros n Hn. unfold row_target. do 2 f_equal. unfold data'. rewrite (nth_indep _ [] (pick keep [] None)) by (rewrite map_length; exact Hn).
    change (fun row => map (fun i => nth i row None) keep) with (fun row : list cell => pick keep row None). rewrite (map_nth (fun row => pick keep row None)). apply HLk. now apply nth_In. }
  split; [|split].
  - intros points weights H1 H2 H3 H4. rewrite <- EI. rewrite (mml_library m' (chances (short keep x))) by (auto; now rewrite EL). rewrite (mml_library m (chances x)) by (auto; now rewrite EC). do 4 f_equal. unfold data'. rewrite map_map.
    f_equal. apply map_ext_in. intros row Hr. f_equal. apply marginal_ext; [reflexivity|]. intros q Hq. now apply HLk.
  - intros thetas H1 H2. split; [|intro prior; now apply SC]. change (jml_loss m' (Wide (length keep) data') thetas) with (scoring_loss m' None (Wide (length keep) data') thetas). now apply SC.
  - intros mvn a points Hg Hne. destruct (eap_prefix (em_lv m) mvn a points Hg) as [(e & HE)|(grid & lp & HG & HF & HE)]; [now rewrite !HE by auto|]. rewrite !HE by auto.
    assert (EX : forall (q : irt) (mq : emodel), well_formed q -> library_model mq (chances q) -> forall da, legal_data (em_cats mq) da -> Forall (fun row => Exists (fun t => 0 < likelihood (chances q) t row) grid) da).
    { intros q mq Hq Hmq da Hl. apply Forall_forall. intros row Hrow. apply Exists_exists. destruct grid as [|t ts]; [cbn in HG; lia|]. exists t. split; [now left|]. apply (library_likelihood mq (chances q)); auto. unfold legal_data in Hl. rewrite Forall_forall in Hl. auto. }
    rewrite <- EI. rewrite (eap_posterior_mean m' (chances (short keep x)) grid lp data'); auto; try now rewrite EL.
    + rewrite (eap_posterior_mean m (chances x) grid lp data); auto.
      * f_equal. unfold data'. rewrite map_map, EL. apply map_ext_in. intros row Hr. apply map_ext. intro d. do 2 f_equal. unfold posterior_mean. f_equal; f_equal; apply map_ext; intro t; change (map (fun i => nth i row None) keep) with (pick keep row None); now rewrite HLk.
      * now apply library_has_probabilities.
      * now apply flat_rowwise, (library_flat m (chances x)).
      * now apply (library_items m (chances x)).
      * now rewrite EC.
      * apply (EX x m); auto. now rewrite EC.
    + now apply library_has_probabilities.
    + now apply flat_rowwise, (library_flat m' (chances (short keep x))).
    + now apply (library_items m' (chances (short keep x))).
    + unfold data'. destruct data; [congruence|discriminate].
    + apply (EX (short keep x) m'); auto.
Qed.
Print Assumptions C143_short_form.

(** A test divided into two short forms: at given latent scores the joint loss of the whole test is the sum of the joint losses of the two forms, each scored
    with its own answers. *)
Theorem C143_halves : forall nanl x keep rest, well_formed x -> let m := model_of nanl x in
  keep <> [] -> rest <> [] -> Permutation (keep ++ rest) (seq 0 (em_items m)) ->
  forall data thetas, legal_data (em_cats m) data -> length thetas = length data -> Forall (fun t => length t = em_lv m) thetas ->
  let form part := jml_loss (model_of nanl (short part x)) (Wide (length part) (map (fun row => map (fun i => nth i row None) part) data)) thetas in
  exists a b, form keep = Ok (Some (Fin a)) /\ form rest = Ok (Some (Fin b)) /\ jml_loss m (Wide (em_items m) data) thetas = Ok (Some (Fin (a + b))).
Proof.
  intros nanl x keep rest H m H1 H2 HP data thetas HD HL HF form. assert (EC : em_cats m = cats_of x) by apply model_cats. assert (HI : em_items m = length (cats_of x)) by (unfold em_items; now rewrite EC). rewrite HI in HP. rewrite EC in HD.
  assert (HM : library_model m (chances x)) by (now apply model_library).
  assert (B : forall j, In j (keep ++ rest) -> (j < length (cats_of x))%nat) by (intros j Hj; apply (Permutation_in _ HP) in Hj; apply in_seq in Hj; lia).
  assert (FORM : forall part, within part (length (cats_of x)) -> form part = Ok (Some (Fin (- sumn (length data) (fun n => ln (likelihood (chances (short part x)) (nth n thetas []) (pick part (nth n data []) None)) + 0)))) /\ forall t row, legal_row (cats_of x) row -> 0 < likelihood (chances (short part x)) t (pick part row None)).
  { intros part HW. assert (H' : well_formed (short part x)) by (now apply short_well_formed). assert (EC' : em_cats (model_of nanl (short part x)) = pick part (cats_of x) O) by (rewrite model_cats; now apply short_cats).
    assert (HM' : library_model (model_of nanl (short part x)) (chances (short part x))) by (now apply model_library).
    assert (EI : em_items (model_of nanl (short part x)) = length part) by (unfold em_items; rewrite EC', pick_length; reflexivity). assert (EL : em_lv (model_of nanl (short part x)) = em_lv m) by (unfold m; rewrite !model_lv; destruct x; reflexivity).
    split; [|intros t row Hr; apply (library_likelihood _ _ t _ HM'); rewrite EC'; now apply short_legal].
    unfold form. set (data' := map _ data). assert (LD : length data' = length data) by (unfold data'; apply map_length). rewrite <- EI.
    change (jml_loss (model_of nanl (short part x)) (Wide (em_items (model_of nanl (short part x))) data') thetas) with (scoring_loss (model_of nanl (short part x)) None (Wide (em_items (model_of nanl (short part x))) data') thetas).
    rewrite (scoring_loss_value _ (chances (short part x))) by (solve [assumption|now rewrite EL|congruence|rewrite EC'; now apply short_legal_data]). rewrite LD. do 4 f_equal.
    apply sumn_ext. intros n Hn. unfold row_target. cbn [prior_term]. do 3 f_equal. unfold data'. rewrite (nth_indep _ [] (pick part [] None)) by (rewrite map_length; exact Hn).
    change (fun row => map (fun i => nth i row None) part) with (fun row : list cell => pick part row None). apply (map_nth (fun row => pick part row None)). }
  destruct (FORM keep) as [FK PK]; [split; [exact H1|intros j Hj; apply B, in_or_app; now left]|]. destruct (FORM rest) as [FR PR]; [split; [exact H2|intros j Hj; apply B, in_or_app; now right]|].
  eexists. eexists. split; [exact FK|]. split; [exact FR|]. change (jml_loss m (Wide (em_items m) data) thetas) with (scoring_loss m None (Wide (em_items m) data) thetas). rewrite (scoring_loss_value m (chances x)) by (auto; now rewrite EC). do 3 f_equal.
  rewrite <- Ropp_plus_distr, <- sumn_plus. f_equal. apply sumn_ext. intros n Hn. unfold row_target. cbn [prior_term]. assert (HR : legal_row (cats_of x) (nth n data [])) by (apply (proj1 (Forall_forall _ _) HD); now apply nth_In).
  rewrite (halves_likelihood keep rest x _ _ H H1 H2 HP HR), ln_mult by auto. ring.
Qed.
Print Assumptions C143_halves.
(** The second of two items. *)
Example C143_nonvacuous : let x := T_Sym.two_items in let m := model_of 0 x in let data := [[None; Some 1]; [Some (-1); Some 0]]%Z in
  well_formed x /\ selection [1]%nat (em_items m) /\ legal_data (em_cats m) data /\ only [1]%nat data /\
  short [1]%nat x = Tpl {| tpl_lv := 2; tpl_free := [[false; true]]; tpl_w := [3]; tpl_b := [0] |} /\
  short [2; 0]%nat (Opl {| opl_items := 3; opl_b := [1; 2; 3] |}) = Opl {| opl_items := 2; opl_b := [3; 1] |} /\
  Permutation ([1] ++ [0])%nat (seq 0 (em_items m)) /\
  jml_loss (model_of 0 (short [1]%nat x)) (Wide 1 [[Some 1]; [Some 0]]%Z) [[0; 1]; [1; 0]] = jml_loss m (Wide 2 data) [[0; 1]; [1; 0]].
Proof.
  cbv zeta. set (data := [[None; Some 1]; [Some (-1); Some 0]]%Z).
  assert (HS : selection [1]%nat (em_items (model_of 0 T_Sym.two_items))) by (split; [discriminate|]; split; [constructor; [intros []|constructor]|]; intros i [<-|[]]; cbn; lia).
  assert (HD : legal_data (em_cats (model_of 0 T_Sym.two_items)) data).
  { unfold legal_data, data. apply Forall_forall. intros row [<- |[<- |[]]]; (split; [reflexivity|]); intros [|[|i]] c H; cbn in H; try (destruct i; discriminate); injection H as <-; auto; right; right;
      first [exists 1%nat; cbn; split; [reflexivity|lia] | exists 0%nat; cbn; split; [reflexivity|lia]]. }
  assert (HO : only [1]%nat data) by (unfold only, data; apply Forall_forall; intros row [<-|[<-|[]]] [|[|i]] Hi; cbn; auto; try (exfalso; apply Hi; now left); destruct i; auto).
  split; [exact T_Sym.two_items_wf|]. split; [exact HS|]. split; [exact HD|]. split; [exact HO|]. split; [reflexivity|]. split; [reflexivity|]. split; [apply perm_swap|].
  destruct (C143_short_form 0 T_Sym.two_items [1]%nat T_Sym.two_items_wf HS) as (_ & _ & _ & _ & _ & HA). destruct (HA data HD HO) as (_ & _ & HJ & _).
  exact (proj1 (HJ [[0; 1]; [1; 0]] eq_refl ltac:(repeat constructor))).
Qed.
