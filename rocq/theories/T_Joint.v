(** Property C149: mixes in joint estimation and in maximum likelihood and MAP scoring. *)
From Coq Require Import Lra String.
From Verif Require T_Flex T_Betw T_Tab T_Nl.
From Verif Require Import Base BaseFacts RBase RFacts M_Data M_Logit M_Lik M_Est M_Opt M_Jml M_Mono M_BSpl M_Flex M_Tab P_Logit P_Logit3 P_Lik1 P_Lik2 P_Lik3 P_Lik4 P_Lik5 P_Lik6 P_Est1 P_Est2 P_Est3 P_Mono4 P_Mono5 P_BSpl3 P_BSpl4 P_BSpl5 P_Mono7 P_Mono8 P_Flex P_Tab P_Joint S_Logit S_Lik S_Est S_Eap S_Mono S_BSpl S_Flex S_Betw S_Joint.
Import List.
Local Open Scope R_scope.

Lemma skipn_twice {A} a : forall b (l : list A), skipn a (skipn b l) = skipn (b + a) l.
Proof. induction b as [|b IH]; intros [|x l]; cbn [skipn Nat.add]; auto. destruct a; reflexivity. Qed.
Lemma rprod_app a b : rprod (a ++ b) = rprod a * rprod b.
Proof. induction a as [|x a IH]; cbn; [ring|]. rewrite IH. ring. Qed.
Lemma mapi_from_app {A B} (f : nat -> A -> B) : forall a b i, mapi_from i f (a ++ b) = mapi_from i f a ++ mapi_from (i + length a) f b.
Proof. induction a as [|x a IH]; intros b i; cbn [app mapi_from length]; [now rewrite Nat.add_0_r|]. rewrite IH. cbn [app]. do 3 f_equal. lia. Qed.
Lemma mapi_from_ext {A B} (f g : nat -> A -> B) : forall l i j, (forall k c, nth_error l k = Some c -> f (i + k)%nat c = g (j + k)%nat c) -> mapi_from i f l = mapi_from j g l.
Proof.
  induction l as [|x l IH]; intros i j H; cbn [mapi_from]; [reflexivity|]. f_equal; [specialize (H 0%nat x eq_refl); now rewrite !Nat.add_0_r in H|].
  apply IH. intros k c E. specialize (H (S k) c E). now rewrite <- !Nat.add_succ_comm in H.
Qed.
Lemma likelihood_joined n p rest t row : (n <= length row)%nat ->
  likelihood (joined ((n, p) :: rest)) t row = likelihood p t (firstn n row) * likelihood (joined rest) t (skipn n row).
Proof.
  intro H. rewrite <- (firstn_skipn n row) at 1. unfold likelihood, mapi. rewrite mapi_from_app, rprod_app. f_equal; f_equal; apply mapi_from_ext; intros k c E.
  - cbn [Nat.add]. destruct (answer c) as [a|]; [|reflexivity]. cbn [joined]. assert (k < length (firstn n row))%nat by (apply nth_error_Some; congruence). rewrite firstn_length in *. destruct (Nat.ltb_spec k n); [reflexivity|lia].
  - cbn [Nat.add]. destruct (answer c) as [a|]; [|reflexivity]. cbn [joined]. rewrite firstn_length, Nat.min_l by exact H. destruct (Nat.ltb_spec (n + k) n); [lia|]. f_equal. lia.
Qed.
Definition part0 : nat * (list R -> nat -> nat -> R) := (0%nat, fun _ _ _ => 0).
Lemma joined_parts t : forall parts row, length row = list_sum (map fst parts) ->
  (forall k n p, nth_error parts k = Some (n, p) -> 0 < likelihood p t (firstn n (skipn (list_sum (firstn k (map fst parts))) row))) ->
  0 < likelihood (joined parts) t row /\
  ln (likelihood (joined parts) t row) = sumn (length parts) (fun k => ln (likelihood (snd (nth k parts part0)) t (firstn (fst (nth k parts part0)) (skipn (list_sum (firstn k (map fst parts))) row)))).
Proof.
  induction parts as [|[n p] rest IH]; intros row HL HP.
  - destruct row; [|discriminate]. unfold likelihood. cbn. split; [lra|apply ln_1].
  - assert (HL' : length row = (n + list_sum (map fst rest))%nat) by exact HL.
    rewrite likelihood_joined by lia. pose proof (HP 0%nat n p eq_refl) as P0. cbn [firstn list_sum fold_right skipn] in P0.
    destruct (IH (skipn n row)) as [P1 E1].
    + rewrite skipn_length. lia.
    + intros k n' p' E. specialize (HP (S k) n' p' E). cbn [map fst firstn] in HP. change (list_sum (n :: firstn k (map fst rest))) with (n + list_sum (firstn k (map fst rest)))%nat in HP. now rewrite skipn_twice.
    + split; [now apply Rmult_lt_0_compat|]. rewrite ln_mult by assumption. rewrite E1. cbn [length]. rewrite sumn_S_first. f_equal.
      apply sumn_ext. intros k Hk. cbn [nth map fst firstn]. change (list_sum (n :: firstn k (map fst rest))) with (n + list_sum (firstn k (map fst rest)))%nat. now rewrite skipn_twice.
Qed.
(** What a part adds. *)
Lemma part_ll m p s thetas d : part_is m s -> scored_by m p -> d <> [] -> Forall (fun t => length t = em_lv m) thetas -> length thetas = length d -> legal_data (em_cats m) d ->
  sb_ll s RSum d (sb_forward s thetas) (Some (map (map missing_cell) d)) = Ok (Scalar (Some (Fin (sumn (length d) (fun n => ln (likelihood p (nth n thetas []) (nth n d []))))))).
Proof.
  intros (_ & _ & H3 & H4) (_ & S2 & _) Hd HT HL HG. destruct (S2 thetas d Hd HT HL HG) as [E _].
  assert (Ht : thetas <> []) by (intros ->; destruct d; [congruence|discriminate]). destruct (H4 thetas Ht HT) as [Ef _].
  unfold jml_loss in E. rewrite Ef in E. cbn [bind] in E. rewrite <- H3 in E. cbn [option_map mask_of w_rows w_cols] in E.
  destruct (sb_ll s RSum d (sb_forward s thetas) (Some (map (map missing_cell) d))) as [[x|l]|e]; cbn [bind scalar_of] in E; try discriminate.
  destruct x as [[x| |]|]; cbn in E; try discriminate. do 4 f_equal. injection E as E. lra.
Qed.
Lemma columns_map {A B} (f : A -> B) lo k rows : columns lo k (map (map f) rows) = map (map f) (columns lo k rows).
Proof. unfold columns. rewrite !map_map. apply map_ext. intro r. now rewrite skipn_map, firstn_map. Qed.

Lemma legal_columns subs k s row : nth_error subs k = Some s -> legal_row (concat (map sb_cats subs)) row -> legal_row (sb_cats s) (firstn (sb_items s) (skipn (offset (map sb_items subs) k) row)).
Proof.
  intros Hk [HL HR]. rewrite length_concat_sum, map_map in HL. change (map (fun x => length (sb_cats x)) subs) with (map sb_items subs) in HL.
  pose proof (f_offset_items_le [] subs (map (fun _ => Wide 0 []) subs) (map_length _ _) k s Hk) as HO. split.
  - rewrite firstn_length, skipn_length. change (length (sb_cats s)) with (sb_items s). lia.
  - intros i c E. assert (Hi : (i < sb_items s)%nat) by (assert (i < length (firstn (sb_items s) (skipn (offset (map sb_items subs) k) row)))%nat by (apply nth_error_Some; congruence); rewrite firstn_length in *; lia).
    rewrite nth_error_firstn_lt, nth_error_skipn_add in E by exact Hi. pose proof (HR _ c E) as H.
    replace (nth (offset (map sb_items subs) k + i) (concat (map sb_cats subs)) O) with (nth i (sb_cats s) O) in H; [exact H|].
    assert (Hc : nth_error (map sb_cats subs) k = Some (sb_cats s)) by now rewrite nth_error_map, Hk. pose proof (nth_error_concat (map sb_cats subs) k i (sb_cats s) Hc Hi) as EC.
    rewrite map_map in EC. change (map (fun x => length (sb_cats x)) subs) with (map sb_items subs) in EC.
    destruct (nth_error (sb_cats s) i) as [K|] eqn:EK; [|apply nth_error_None in EK; unfold sb_items in Hi; lia]. now rewrite (nth_error_nth _ _ O EK), (nth_error_nth _ _ O EC).
Qed.
Lemma made_items lv parts subs : made_of lv parts subs -> map fst (parts_of parts) = map sb_items subs.
Proof.
  intros [_ H]. induction H as [|[m p] s l l' (HP & _) _ IH]; [reflexivity|]. cbn [parts_of map fst snd] in *. f_equal; [|exact IH]. destruct HP as (_ & HC & _). unfold em_items, sb_items. cbn [fst] in HC. now rewrite HC.
Qed.
Lemma made_nth lv parts subs k s : made_of lv parts subs -> nth_error subs k = Some s -> exists m p, nth_error parts k = Some (m, p) /\ part_is m s /\ em_lv m = lv /\ estimated_by m p.
Proof.
  intros [_ H] Hk. revert k Hk. induction H as [|[m p] s0 l l' HP _ IH]; intros [|k] Hk; try discriminate; [injection Hk as <-; exists m, p; now split|]. apply (IH k Hk).
Qed.
Lemma made_length lv parts subs : made_of lv parts subs -> length (parts_of parts) = length subs.
Proof. intros [_ H]. unfold parts_of. rewrite map_length. now apply P_Est3.Forall2_len in H. Qed.
Lemma made_part lv parts subs k n p : made_of lv parts subs -> nth_error (parts_of parts) k = Some (n, p) -> exists s m, nth_error subs k = Some s /\ nth_error parts k = Some (m, p) /\ n = sb_items s /\ part_is m s /\ em_lv m = lv /\ estimated_by m p.
Proof.
  intros HM E. assert (k < length subs)%nat by (rewrite <- (made_length lv parts subs HM); apply nth_error_Some; congruence).
  destruct (nth_error subs k) as [s|] eqn:Es; [|apply nth_error_None in Es; lia]. destruct (made_nth lv parts subs k s HM Es) as (m & p' & Ep & H1 & H2 & H3).
  unfold parts_of in E. rewrite nth_error_map, Ep in E. cbn in E. injection E as <- <-. exists s, m. repeat (split; auto). destruct H1 as (_ & HC & _). unfold em_items, sb_items. now rewrite HC.
Qed.
(** ** C149 *)
(** Joint estimation, and maximum likelihood and MAP scoring, of a mix use the probabilities of all its parts. *)
Theorem C149_joint : forall lv parts subs, made_of lv parts subs ->
  let p := joined (parts_of parts) in let mix := of_mix lv subs in
  forall thetas data, data <> [] -> Forall (fun t => length t = lv) thetas -> length thetas = length data -> legal_data (em_cats mix) data ->
    jml_loss mix (Wide (em_items mix) data) thetas = Ok (Some (Fin (- sumn (length data) (fun n => ln (likelihood p (nth n thetas []) (nth n data [])))))) /\
    scoring_loss mix None (Wide (em_items mix) data) thetas = Ok (Some (Fin (- sumn (length data) (fun n => ln (likelihood p (nth n thetas []) (nth n data [])))))) /\
    forall lp, scoring_loss mix (Some lp) (Wide (em_items mix) data) thetas =
      Ok (Some (Fin (- sumn (length data) (fun n => ln (likelihood p (nth n thetas []) (nth n data [])) + lp (nth n thetas []))))).
Proof.
  intros lv parts subs HM p mix thetas data Hd HT HL HG. pose proof HM as [Hne _]. assert (Ht : thetas <> []) by (intros ->; destruct data; [congruence|discriminate]).
  cbn [mix of_mix em_cats] in HG. assert (EI : em_items mix = list_sum (map sb_items subs)) by (unfold em_items, mix; cbn [of_mix em_cats]; rewrite length_concat_sum, map_map; reflexivity).
  set (I := list_sum (map sb_items subs)) in *.
  set (out s := match sb_forward s thetas with T2 w => w | T3 _ => Wide 0 [] end). set (ws := map out subs).
  assert (HF : forall k s w, nth_error subs k = Some s -> nth_error ws k = Some w -> flat_part thetas s w).
  { intros k s w Hk Hw. unfold ws in Hw. rewrite nth_error_map, Hk in Hw. injection Hw as <-. destruct (made_nth lv parts subs k s HM Hk) as (m & q & _ & (_ & _ & _ & HP) & El & _).
    rewrite El in HP. destruct (HP thetas Ht HT) as [_ [w Hw]]. pose proof Hw as (E & _). unfold out. now rewrite E. }
  assert (Hlw : length ws = length subs) by (unfold ws; now rewrite map_length).
  assert (RD : rect (length thetas) I data).
  { split; [congruence|]. unfold legal_data in HG. eapply Forall_impl; [|exact HG]. intros row [E _]. rewrite E, length_concat_sum, map_map. reflexivity. }
  assert (RM : rect_opt (length thetas) I (Some (map (map missing_cell) data))).
  { destruct RD as [R1 R2]. split; [now rewrite map_length|]. apply Forall_forall. intros r Hr. apply in_map_iff in Hr as [r0 [<- Hin]]. rewrite map_length. rewrite Forall_forall in R2. auto. }
  set (v k := sumn (length data) (fun n => ln (likelihood (snd (nth k (parts_of parts) part0)) (nth n thetas []) (firstn (fst (nth k (parts_of parts) part0)) (skipn (list_sum (firstn k (map fst (parts_of parts)))) (nth n data [])))))).
  pose proof (f_mix_forward_eq thetas subs ws Hne Hlw HF) as EF.
  pose proof (f_mix_ll_loop thetas subs ws Hne Hlw HF data (Some (map (map missing_cell) data)) RM RSum (fun k => Scalar (Some (Fin (v k))))) as ELL.
  assert (ES : sumn (length subs) v = sumn (length data) (fun n => ln (likelihood p (nth n thetas []) (nth n data [])))).
  { unfold v. rewrite sumn_swap. apply sumn_ext. intros n Hn. unfold p. rewrite <- (made_length lv parts subs HM). symmetry. apply joined_parts.
    - destruct RD as [R1 R2]. rewrite (made_items lv parts subs HM). rewrite Forall_forall in R2. apply R2. apply nth_In. exact Hn.
    - intros k nk pk Ek. destruct (made_part lv parts subs k nk pk HM Ek) as (s & m & Es & _ & -> & (_ & HC & _) & El & HD & _). rewrite (made_items lv parts subs HM).
      apply (T_Flex.likelihood_positive (em_lv m) (em_cats m)); [exact HD| |].
      + rewrite El. rewrite Forall_forall in HT. apply HT. apply nth_In. lia.
      + rewrite <- HC. apply legal_columns; [exact Es|]. unfold legal_data in HG. rewrite Forall_forall in HG. apply HG. now apply nth_In. }
  assert (E : em_ll mix RSum (Wide I data) (T2 (Wide (list_sum (mix_sizes subs)) (f_mix_rows ws))) (Some (mask_of (Wide I data))) = Ok (Scalar (Some (Fin (sumn (length subs) v))))).
  { etransitivity; [apply ELL|].
    - intros k s w Hk Hw. pose proof (HF k s w Hk Hw) as (Ew & _). rewrite <- Ew. destruct (made_nth lv parts subs k s HM Hk) as (m & q & Eq & HP & El & HD & HS).
      unfold f_sub_data, f_sub_mask. cbn [option_map]. rewrite columns_map.
      rewrite (part_ll m q s thetas (columns (offset (map sb_items subs) k) (sb_items s) data) HP HS).
      + do 4 f_equal. unfold v, columns. rewrite map_length. apply sumn_ext. intros n Hn.
        assert (Ep : nth k (parts_of parts) part0 = (sb_items s, q)). { apply nth_error_nth. unfold parts_of. rewrite nth_error_map, Eq. cbn [option_map fst snd]. destruct HP as (_ & HC & _). unfold em_items, sb_items. now rewrite HC. }
        rewrite Ep. cbn [fst snd]. rewrite (made_items lv parts subs HM). do 2 f_equal. change (list_sum (firstn k (map sb_items subs))) with (offset (map sb_items subs) k).
        rewrite (nth_indep _ [] (firstn (sb_items s) (skipn (offset (map sb_items subs) k) []))) by now rewrite map_length. now rewrite (map_nth (fun r => firstn (sb_items s) (skipn (offset (map sb_items subs) k) r))).
      + unfold columns. destruct data; [congruence|discriminate].
      + now rewrite El.
      + unfold columns. now rewrite map_length.
      + unfold legal_data, columns. apply Forall_forall. intros r Hr. apply in_map_iff in Hr as [r0 [<- Hin]]. destruct HP as (_ & HC & _). rewrite <- HC. apply legal_columns; [exact Hk|]. unfold legal_data in HG. rewrite Forall_forall in HG. auto.
    - replace (mapM scalar_of (map (fun k => Scalar (Some (Fin (v k)))) (seq 0 (length subs)))) with (Ok (map (fun x => Some (Fin x)) (map v (seq 0 (length subs))))).
      + cbn [bind]. rewrite fsum_fin, rsum_map_seq. reflexivity.
      + rewrite map_map. symmetry. generalize (seq 0 (length subs)) as l. induction l as [|a l IH]; [reflexivity|]. cbn [map mapM scalar_of bind]. rewrite IH. reflexivity. }
  rewrite EI. rewrite ES in E. split; [|split].
  - unfold jml_loss. cbn [mix of_mix em_forward]. rewrite EF. cbn [bind]. fold mix. change (mix_log_likelihood subs) with (em_ll mix). rewrite E. reflexivity.
  - unfold scoring_loss. cbn [mix of_mix em_forward]. rewrite EF. cbn [bind]. change (mix_log_likelihood subs) with (em_ll mix). rewrite E. reflexivity.
  - intro lp. unfold scoring_loss. cbn [mix of_mix em_forward]. rewrite EF. cbn [bind]. change (mix_log_likelihood subs) with (em_ll mix). rewrite E. cbn [bind scalar_of]. cbn. do 3 f_equal.
    rewrite (sumn_plus (length data)). replace (rsum (map lp thetas)) with (sumn (length data) (fun n => lp (nth n thetas []))); [ring|].
    rewrite <- HL. clear. induction thetas as [|t thetas IH]; [reflexivity|]. cbn [length map]. rewrite sumn_S_first. cbn [nth]. rewrite IH. reflexivity.
Qed.
Print Assumptions C149_joint.
(** The loss is the sum of the losses its parts have when they are estimated on their own items with the same latent scores. *)
Theorem C149_sum : forall lv parts subs, made_of lv parts subs -> let mix := of_mix lv subs in
  forall thetas data, data <> [] -> Forall (fun t => length t = lv) thetas -> length thetas = length data -> legal_data (em_cats mix) data ->
  exists L, jml_loss mix (Wide (em_items mix) data) thetas = Ok (Some (Fin (sumn (length parts) L))) /\
    forall k m p, nth_error parts k = Some (m, p) -> jml_loss m (Wide (em_items m) (columns (first_item subs k) (em_items m) data)) thetas = Ok (Some (Fin (L k))).
Proof.
  intros lv parts subs HM mix thetas data Hd HT HL HG.
  set (col k n := firstn (fst (nth k (parts_of parts) part0)) (skipn (list_sum (firstn k (map fst (parts_of parts)))) (nth n data []))).
  exists (fun k => - sumn (length data) (fun n => ln (likelihood (snd (nth k (parts_of parts) part0)) (nth n thetas []) (col k n)))). split.
  - etransitivity; [exact (proj1 (C149_joint lv parts subs HM thetas data Hd HT HL HG))|]. do 3 f_equal.
    rewrite (sumn_ext (length parts) _ (fun k => (-1) * sumn (length data) (fun n => ln (likelihood (snd (nth k (parts_of parts) part0)) (nth n thetas []) (col k n))))) by (intros; ring).
    rewrite sumn_scal, sumn_swap. replace (length parts) with (length (parts_of parts)) by apply map_length.
    rewrite (sumn_ext (length data) (fun n => ln (likelihood (joined (parts_of parts)) (nth n thetas []) (nth n data []))) (fun n => sumn (length (parts_of parts)) (fun k => ln (likelihood (snd (nth k (parts_of parts) part0)) (nth n thetas []) (col k n))))); [ring|].
    intros n Hn. cbn [mix of_mix em_cats] in HG. unfold legal_data in HG. rewrite Forall_forall in HG. pose proof (HG _ (nth_In data [] Hn)) as HR. apply joined_parts.
    + rewrite (made_items lv parts subs HM). destruct HR as [-> _]. rewrite length_concat_sum, map_map. reflexivity.
    + intros k nk pk Ek. destruct (made_part lv parts subs k nk pk HM Ek) as (s & m & Es & _ & -> & (_ & HC & _) & El & HD & _). rewrite (made_items lv parts subs HM).
      apply (T_Flex.likelihood_positive (em_lv m) (em_cats m)); [exact HD| |].
      * rewrite El. rewrite Forall_forall in HT. apply HT. apply nth_In. lia.
      * rewrite <- HC. now apply legal_columns.
  - intros k m p Ek. assert (Ep : nth_error (parts_of parts) k = Some (em_items m, p)) by (unfold parts_of; now rewrite nth_error_map, Ek).
    destruct (made_part lv parts subs k _ p HM Ep) as (s & m' & Es & Ek' & EI & (_ & HC & _) & El & _ & (_ & S2 & _)). rewrite Ek in Ek'. injection Ek' as <-.
    destruct (S2 thetas (columns (first_item subs k) (em_items m) data)) as [E _].
    + unfold columns. destruct data; [congruence|discriminate].
    + now rewrite El.
    + unfold columns. now rewrite map_length.
    + unfold legal_data, columns. apply Forall_forall. intros r Hr. apply in_map_iff in Hr as [r0 [<- Hin]]. rewrite <- HC, EI. apply legal_columns; [exact Es|]. cbn [mix of_mix em_cats] in HG. unfold legal_data in HG. rewrite Forall_forall in HG. auto.
    + rewrite E. do 4 f_equal. unfold columns. rewrite map_length. apply sumn_ext. intros n Hn. unfold col. rewrite (nth_error_nth _ _ part0 Ep). cbn [fst snd]. rewrite (made_items lv parts subs HM). do 2 f_equal.
      change (list_sum (firstn k (map sb_items subs))) with (first_item subs k).
      rewrite (nth_indep _ [] (firstn (em_items m) (skipn (first_item subs k) []))) by now rewrite map_length. now rewrite (map_nth (fun r => firstn (em_items m) (skipn (first_item subs k) r))).
Qed.
Print Assumptions C149_sum.
(** These are the probabilities of the categories of the items of the mix. *)
Theorem C149_distributions : forall lv parts subs, made_of lv parts subs -> distributions lv (em_cats (of_mix lv subs)) (joined (parts_of parts)).
Proof.
  intros lv parts subs [_ H]. cbn [of_mix em_cats]. induction H as [|[m p] s l l' (HP & El & HD & _) _ IH]; intros t i K Ht Hi; [destruct i; discriminate|].
  cbn [map concat] in Hi. cbn [parts_of map fst snd] in *. destruct HP as (_ & HC & _). rewrite HC in Hi. cbn [joined]. destruct (Nat.ltb_spec i (em_items m)) as [Hlt|Hge]; unfold em_items in *.
  - rewrite nth_error_app1 in Hi by exact Hlt. apply (HD t i K); [now rewrite El|exact Hi].
  - rewrite nth_error_app2 in Hi by exact Hge. apply (IH t (i - length (em_cats m))%nat K Ht Hi).
Qed.
Print Assumptions C149_distributions.
Lemma honest_part s : (forall thetas, Forall (fun t => length t = sb_lv s) thetas -> exists w P, honest_sub thetas s w P) -> part_is (of_sub s) s.
Proof.
  intro H. split; [reflexivity|]. split; [reflexivity|]. split; [reflexivity|]. intros thetas _ HF. split; [reflexivity|]. destruct (H thetas HF) as (w & P & H1 & H2 & H3 & _). exists w. now split.
Qed.
Lemma flat_is nanl m lv cats f : em_lv m = lv -> em_cats m = cats ->
  (forall red data out mask, base_log_likelihood nanl (list_max cats) red (w_rows data) (rows_of out) (option_map w_rows mask) = em_ll m red data out mask) ->
  (forall t, length t = lv -> length (f t) = (length cats * list_max cats)%nat) ->
  (forall thetas, thetas <> [] -> Forall (fun t => length t = lv) thetas -> em_forward m thetas = Ok (T2 (Wide (length cats * list_max cats) (map f thetas)))) ->
  part_is m (logit_sub nanl lv cats (map f)).
Proof.
  intros El Ec Hll Hf HF. split; [now rewrite El|]. split; [now rewrite Ec|]. split; [exact Hll|]. intros thetas Ht HT. rewrite El in HT. split; [now apply HF|].
  eexists. split; [reflexivity|]. cbn [w_cols w_rows]. change (sb_max (logit_sub nanl lv cats (map f))) with (list_max cats). change (sb_items (logit_sub nanl lv cats (map f))) with (length cats). split; [apply Nat.mul_comm|].
  split; [now rewrite map_length|]. apply Forall_forall. intros r Hr. apply in_map_iff in Hr as [t [<- Hin]]. rewrite Forall_forall in HT. rewrite Hf by auto. apply Nat.mul_comm.
Qed.
(** Every model but 3PL, SurprisalSpline and NestedLogit (C29) can be a part: the parametric ones, *)
Theorem C149_parametric : forall nanl,
  (forall m, length (opl_b m) = opl_items m -> (0 < opl_items m)%nat -> part_is (of_sub (opl_sub nanl m)) (opl_sub nanl m) /\ estimated_by (of_sub (opl_sub nanl m)) (opl_p m)) /\
  (forall m, tpl_wf m -> (0 < tpl_items m)%nat -> part_is (of_sub (tpl_sub nanl m)) (tpl_sub nanl m) /\ estimated_by (of_sub (tpl_sub nanl m)) (tpl_p m)) /\
  (forall m, poly_wf m -> (0 < p_items m)%nat -> part_is (of_sub (gpc_sub nanl m)) (gpc_sub nanl m) /\ estimated_by (of_sub (gpc_sub nanl m)) (gpc_p m)) /\
  (forall m, poly_wf m -> (0 < p_items m)%nat -> decreasing_intercepts m -> part_is (of_sub (grm_sub nanl m)) (grm_sub nanl m) /\ estimated_by (of_sub (grm_sub nanl m)) (grm_p m)) /\
  (forall m, nrm_wf m -> (0 < length (nrm_cats m))%nat -> part_is (of_sub (nrm_sub nanl m)) (nrm_sub nanl m) /\ estimated_by (of_sub (nrm_sub nanl m)) (nrm_p m)).
Proof.
  intro nanl. split; [|split; [|split; [|split]]]; intro m.
  - intros H1 H2. split; [|apply T_Betw.C147_library; now constructor]. apply honest_part. intros thetas _. unfold opl_sub, opl_rows. eexists. eexists. apply logit_sub_honest; rewrite ?repeat_length, ?repeat_max by auto; try lia.
    pose proof (opl_rect m (map (fun t => nth 0 t 0) thetas) H1) as R. now rewrite map_length in R.
  - intros H1 H2. split; [|apply T_Betw.C147_library; now constructor]. apply honest_part. intros thetas HF. destruct (tpl_sub_honest nanl m thetas H1 H2 HF) as [w H]. eauto.
  - intros H1 H2. split; [|apply T_Betw.C147_library; now constructor]. apply honest_part. intros thetas HF. destruct (gpc_sub_honest nanl m thetas H1 H2 HF) as [w H]. eauto.
  - intros H1 H2 H3. split; [|apply T_Betw.C147_library; now constructor]. apply honest_part. intros thetas HF. pose proof (grm_sub_honest nanl m thetas H1 H2 HF). eauto.
  - intros H1 H2. split; [|apply T_Betw.C147_library; now constructor]. apply honest_part. intros thetas HF. destruct (nrm_sub_honest nanl m thetas H1 H2) as [w H]. eauto.
Qed.
Print Assumptions C149_parametric.
(** networks, polynomials, and monotone splines. *)
Theorem C149_network : forall nanl cats lv rel hidden key sep neg bounded m0 m,
  mnn_init cats lv rel hidden key sep neg bounded = Ok m0 -> cats <> [] -> Forall (fun K => (1 <= K)%nat) cats -> (0 < lv)%nat ->
  (forall h, hidden = Some h -> Forall (fun x => (0 < x)%nat) h) ->
  (forall k, key = Some k -> length k = length cats /\ forall i K, nth_error cats i = Some K -> (nth i k O < K)%nat) -> same_mnn m0 m ->
  exists s p, part_is (mnn_model nanl m) s /\ em_lv (mnn_model nanl m) = lv /\ estimated_by (mnn_model nanl m) p /\ reports (mnn_probabilities m) lv cats p.
Proof.
  intros nanl cats lv rel hidden key sep neg bounded m0 m E0 HC HK Hlv Hh Hkey Hs. destruct (T_Flex.C144_network nanl _ _ _ _ _ _ _ _ _ _ E0 HC HK Hlv Hh Hkey Hs) as (p & H1 & H2 & H3).
  destruct (mnn_init_ok _ _ _ _ _ _ _ _ _ E0 HC HK Hlv Hh) as (Hok0 & Ec & El & Ek & _). pose proof (same_mnn_ok _ _ Hs Hok0) as Hok.
  assert (Ec' : n_cats m = cats) by (unfold same_mnn in Hs; decompose [and] Hs; congruence). assert (El' : n_lv m = lv) by (unfold same_mnn in Hs; decompose [and] Hs; congruence). assert (Ek' : n_key m = key) by (unfold same_mnn in Hs; decompose [and] Hs; congruence).
  destruct (mnn_logits nanl m Hok) as (f & z & F1 & F2 & F3).
  { intros k Hk. rewrite Ek' in Hk. unfold n_items. rewrite Ec'. now apply Hkey. }
  clear Ec El. exists (logit_sub nanl lv cats (map f)), p. subst lv cats. split; [|split; [reflexivity|split; [split; assumption|assumption]]].
  apply flat_is; try reflexivity; [exact F1|]. intros thetas _ HF. exact (proj2 (F3 thetas HF)).
Qed.
Print Assumptions C149_network.
Theorem C149_polynomial : forall nanl cats lv rel degree sep neg dir0 m0 m,
  mpm_init cats lv rel degree sep neg dir0 = Ok m0 -> cats <> [] -> Forall (fun K => (1 <= K)%nat) cats -> same_mpm m0 m ->
  exists s p, part_is (mpm_model nanl m) s /\ em_lv (mpm_model nanl m) = lv /\ estimated_by (mpm_model nanl m) p /\ reports (fun thetas => Ok (mpm_probabilities m thetas)) lv cats p.
Proof.
  intros nanl cats lv rel degree sep neg dir0 m0 m E0 HC HK Hs. destruct (T_Flex.C144_polynomial nanl _ _ _ _ _ _ _ _ _ E0 HC HK Hs) as (p & H1 & H2 & H3).
  destruct (mpm_init_ok _ _ _ _ _ _ _ _ E0 HC HK) as (Hok0 & Ec & El & _). pose proof (same_mpm_ok _ _ Hs Hok0) as Hok.
  assert (Ec' : q_cats m = cats) by (unfold same_mpm in Hs; decompose [and] Hs; congruence). assert (El' : mp_in (q_poly m) = lv) by (unfold same_mpm in Hs; decompose [and] Hs; congruence).
  destruct (mpm_logits nanl m Hok) as (f & z & F1 & F2 & F3).
  clear Ec El. exists (logit_sub nanl lv cats (map f)), p. subst lv cats. split; [|split; [reflexivity|split; [split; assumption|assumption]]].
  apply flat_is; try reflexivity; [exact F1|]. intros thetas _ HF. exact (proj2 (F3 thetas HF)).
Qed.
Print Assumptions C149_polynomial.
Theorem C149_monotone : forall nanl cats lv knots degree separate m, (0 < lv)%nat -> cats <> [] -> Forall (fun K => (1 <= K)%nat) cats ->
  separate = "items"%string \/ lv = 1%nat -> same_bspl (bs_init cats lv knots degree separate) m ->
  exists s p, part_is (bs_model nanl m) s /\ em_lv (bs_model nanl m) = lv /\ estimated_by (bs_model nanl m) p /\ reports (bs_probabilities m) lv cats p.
Proof.
  intros nanl cats lv knots degree separate m Hlv HC HK Hs Hsame. destruct (T_Tab.C145_monotone nanl cats lv knots degree separate m Hlv HC HK Hs Hsame) as (p & H1 & H2 & H3).
  destruct (bs_init_ok cats lv knots degree separate m Hlv HK Hs Hsame) as (Hok & E1 & E2 & _).
  exists (logit_sub nanl lv cats (map (fun t => concat (bs_row m t)))), p. subst lv cats. split; [|split; [reflexivity|split; [split; assumption|assumption]]].
  apply flat_is; try reflexivity; [intros; apply bs_row_length|]. intros thetas Ht HF. cbn [bs_model em_forward]. rewrite bs_forward_rows by auto. cbn [rmap]. now rewrite map_map.
Qed.
Print Assumptions C149_monotone.
(** A two-dimensional 2PL with two items before the network with a key of C144. *)
Definition mix_answers : list (list cell) := [[Some 1; Some 0; Some 2; Some 1]; [None; Some 1; Some (-1); Some 0]]%Z.
Example C149_nonvacuous : exists net s parts, T_Flex.mc_net = Ok net /\ made_of 2 parts [tpl_sub (-1) T_Nl.nl_right; s] /\ map fst parts = [of_sub (tpl_sub (-1) T_Nl.nl_right); mnn_model (-1) net] /\
  legal_data (em_cats (of_mix 2 [tpl_sub (-1) T_Nl.nl_right; s])) mix_answers /\
  exists v, jml_loss (of_mix 2 [tpl_sub (-1) T_Nl.nl_right; s]) (Wide 4 mix_answers) [[0;1];[1;-1]] = Ok (Some (Fin v)).
Proof.
  destruct T_Flex.mc_net as [net|e] eqn:E; [|vm_compute in E; discriminate]. pose proof E as E'. unfold T_Flex.mc_net in E'.
  destruct (C149_network (-1) [3;2]%nat 2 None (Some [3;6]%nat) (Some [1;0]%nat) true true true net net E') as (s & p & HP & Hl & He & _).
  { discriminate. } { constructor; [lia|constructor; [lia|constructor]]. } { lia. } { intros h Eh. injection Eh as <-. constructor; [lia|constructor; [lia|constructor]]. }
  { intros k Ek. injection Ek as <-. split; [reflexivity|]. intros [|[|i]] K Ei; cbn in Ei; try (injection Ei as <-; cbn; lia). destruct i; discriminate. }
  { apply same_mnn_refl. }
  destruct (proj1 (proj2 (C149_parametric (-1)))  T_Nl.nl_right) as [HT1 HT2]; [apply T_Nl.nl_right_wf|cbn; lia|].
  assert (HM : made_of 2 [(of_sub (tpl_sub (-1) T_Nl.nl_right), tpl_p T_Nl.nl_right); (mnn_model (-1) net, p)] [tpl_sub (-1) T_Nl.nl_right; s]).
  { split; [discriminate|]. constructor; [split; [exact HT1|split; [reflexivity|exact HT2]]|]. constructor; [split; [exact HP|split; [exact Hl|exact He]]|constructor]. }
  assert (EC : sb_cats s = [3;2]%nat). { destruct HP as (_ & -> & _). cbn [mnn_model em_cats]. vm_compute in E'. injection E' as <-. reflexivity. }
  assert (ECm : em_cats (of_mix 2 [tpl_sub (-1) T_Nl.nl_right; s]) = [2;2;3;2]%nat) by (cbn [of_mix em_cats map concat]; rewrite EC; reflexivity).
  assert (HG : legal_data (em_cats (of_mix 2 [tpl_sub (-1) T_Nl.nl_right; s])) mix_answers).
  { rewrite ECm. apply Forall_forall; intros row [<-|[<-|[]]]; split; try reflexivity; intros [|[|[|[|i]]]] c Ec; cbn in Ec; try (destruct i; discriminate); injection Ec as <-;
      first [now left | right; left; reflexivity | right; right; first [exists 2%nat; split; [reflexivity|cbn; lia]|exists 1%nat; split; [reflexivity|cbn; lia]|exists 0%nat; split; [reflexivity|cbn; lia]]]. }
  exists net, s. eexists. split; [reflexivity|]. split; [exact HM|]. split; [reflexivity|]. split; [exact HG|].
  eexists. replace 4%nat with (em_items (of_mix 2 [tpl_sub (-1) T_Nl.nl_right; s])) by (unfold em_items; now rewrite ECm).
  apply (C149_joint 2 _ _ HM); [discriminate| |reflexivity|exact HG]. constructor; [reflexivity|constructor; [reflexivity|constructor]].
Qed.
