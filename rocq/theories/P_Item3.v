(** Combinations of parameters that count the answers of one item, or weigh its scores by a latent variable. *)
From Verif Require Import Base BaseFacts RBase RFacts M_Data M_Logit M_Lik M_Est P_Logit P_Logit2 P_Lik5 P_Est2 P_Info2 P_Opt1 P_Opt2 P_Opt3 P_Max3 P_Suff1 P_Scoreq P_Item1 P_Item2 S_Logit S_Lik S_Est S_Opt S_Item.
Import List.
Local Open Scope R_scope.

(** ** Lists made of one block per item *)
Lemma nth_concat_block (bs : list (list R)) sizes i j d : map (@length R) bs = sizes -> (j < nth i sizes 0)%nat -> nth (list_sum (firstn i sizes) + j) (concat bs) d = nth j (nth i bs []) d.
Proof.
  intros <- Hj. destruct (Nat.lt_ge_cases i (length bs)) as [Hi|Hi].
  - destruct (some_row bs i Hi) as [l El]. assert (E : nth i (map (@length R) bs) 0%nat = length l) by (apply nth_error_nth; now rewrite nth_error_map, El). rewrite E in Hj.
    rewrite (nth_error_nth _ _ [] El). apply nth_error_nth. pose proof (nth_error_concat bs i j l El Hj) as Q. unfold offset in Q. rewrite Q. now apply nth_error_nth_lt.
  - rewrite nth_overflow in Hj by (now rewrite map_length). lia.
Qed.
Definition place (sizes : list nat) (i : nat) (l : nat -> R) : list R := concat (mapi (fun i' K => if (i' =? i)%nat then map l (seq 0 K) else repeat 0 K) sizes).
Lemma place_sizes sizes i l : map (@length R) (mapi (fun i' K => if (i' =? i)%nat then map l (seq 0 K) else repeat 0 K) sizes) = sizes.
Proof.
  apply nth_error_ext. intro j. rewrite nth_error_map, nth_error_mapi. destruct (nth_error sizes j) as [K|]; [|reflexivity]. cbn [option_map]. f_equal. destruct (j =? i)%nat; [now rewrite map_length, seq_length|now rewrite repeat_length].
Qed.
Lemma place_length sizes i l : length (place sizes i l) = list_sum sizes.
Proof. unfold place. now rewrite length_concat_sum, place_sizes. Qed.
Lemma place_nth sizes i l i' j : (j < nth i' sizes 0)%nat -> nth (list_sum (firstn i' sizes) + j) (place sizes i l) 0 = if (i' =? i)%nat then l j else 0.
Proof.
  intro Hj. unfold place. rewrite (nth_concat_block _ sizes _ _ 0 (place_sizes sizes i l) Hj).
  assert (Hi : (i' < length sizes)%nat) by (destruct (Nat.lt_ge_cases i' (length sizes)); [assumption|rewrite nth_overflow in Hj; lia]).
  pose proof (nth_error_nth_lt sizes i' 0%nat Hi) as E.
  rewrite (nth_error_nth (mapi _ sizes) i' [] (x := if (i' =? i)%nat then map l (seq 0 (nth i' sizes 0%nat)) else repeat 0 (nth i' sizes 0%nat))) by (now rewrite nth_error_mapi, E).
  destruct (i' =? i)%nat; [now rewrite nth_map_seq|]. apply nth_error_nth. now apply nth_error_repeat_lt.
Qed.
Lemma nth_pred cats i : nth i (map pred cats) 0%nat = pred (nth i cats 0%nat).
Proof. change 0%nat with (pred 0) at 1. apply map_nth. Qed.
Lemma place_intercept cats i l i' k : (1 <= k < nth i' cats O)%nat -> intercept cats (place (map pred cats) i l) i' k = if (i' =? i)%nat then l (k - 1)%nat else 0.
Proof.
  intro Hk. unfold intercept. destruct (Nat.leb_spec 1 k); [|lia]. destruct (Nat.ltb_spec k (nth i' cats O)); [|lia]. cbn [andb]. apply place_nth. rewrite nth_pred. lia.
Qed.
Lemma ctrue_concat l : ctrue (concat l) = list_sum (map ctrue l).
Proof. induction l as [|a l IH]; [reflexivity|]. cbn [concat map list_sum fold_right]. rewrite ctrue_app, IH. reflexivity. Qed.
Lemma ctrue_inj row d d' : nth d row false = true -> nth d' row false = true -> ctrue (firstn d row) = ctrue (firstn d' row) -> d = d'.
Proof.
  revert d d'. induction row as [|b row IH]; intros [|d] [|d'] H H' E; cbn [nth] in *; try discriminate; auto.
  - subst b. cbn [firstn] in E. rewrite ctrue_cons in E. cbn in E. lia.
  - subst b. cbn [firstn] in E. rewrite ctrue_cons in E. cbn in E. lia.
  - f_equal. apply IH; auto. cbn [firstn] in E. rewrite !ctrue_cons in E. lia.
Qed.
Lemma place_slope free i d i' d' : nth d (nth i free []) false = true ->
  slope free (place (map ctrue free) i (fun j => if (j =? ctrue (firstn d (nth i free [])))%nat then 1 else 0)) i' d' = if (i' =? i)%nat && (d' =? d)%nat then 1 else 0.
Proof.
  intro Hd. unfold slope. destruct (nth d' (nth i' free []) false) eqn:Hd'.
  - assert (Hi : (i' < length free)%nat) by (destruct (Nat.lt_ge_cases i' (length free)); [assumption|]; rewrite (nth_overflow free) in Hd' by assumption; destruct d'; discriminate).
    assert (HL : (d' < length (nth i' free []))%nat) by (destruct (Nat.lt_ge_cases d' (length (nth i' free []))); [assumption|]; rewrite nth_overflow in Hd' by assumption; discriminate).
    rewrite ctrue_concat, <- firstn_map. rewrite place_nth.
    + destruct (Nat.eqb_spec i' i) as [-> |]; [|reflexivity]. cbn [andb]. destruct (Nat.eqb_spec d' d) as [-> |Hne]; [now rewrite Nat.eqb_refl|]. destruct (Nat.eqb_spec (ctrue (firstn d' (nth i free []))) (ctrue (firstn d (nth i free [])))) as [E|]; [|reflexivity]. exfalso. apply Hne. now apply (ctrue_inj (nth i free [])).
    + change 0%nat with (ctrue []). rewrite map_nth. apply ctrue_firstn_lt. rewrite <- Hd'. now apply nth_error_nth_lt.
  - destruct (Nat.eqb_spec i' i) as [-> |]; [|reflexivity]. destruct (Nat.eqb_spec d' d) as [-> |]; [congruence|reflexivity].
Qed.
Lemma zero_nth n j : nth j (repeat 0 n) 0 = 0.
Proof. destruct (Nat.lt_ge_cases j n); [apply nth_error_nth; now apply nth_error_repeat_lt|apply nth_overflow; now rewrite repeat_length]. Qed.
Lemma zero_slope free n i d : slope free (repeat 0 n) i d = 0.
Proof. unfold slope. now destruct (nth d (nth i free []) false); rewrite ?zero_nth. Qed.
Lemma zero_predictor lv a t : (forall d, a d = 0) -> predictor lv a t = 0.
Proof. intro H. unfold predictor. rewrite (sumn_ext lv _ (fun _ => 0)); [apply sumn_0|]. intros d _. rewrite H. ring. Qed.
Lemma zero_intercept cats n i k : intercept cats (repeat 0 n) i k = 0.
Proof. unfold intercept. now destruct (_ && _); rewrite ?zero_nth. Qed.
Lemma firstn_exact {A} (a b : list A) n : length a = n -> firstn n (a ++ b) = a.
Proof. intros <-. rewrite firstn_app, Nat.sub_diag, firstn_all. apply app_nil_r. Qed.
Lemma skipn_exact {A} (a b : list A) n : length a = n -> skipn n (a ++ b) = b.
Proof. intros <-. rewrite skipn_app, Nat.sub_diag, skipn_all. reflexivity. Qed.

(** ** The change of the logits along a direction [c] in the space of parameters *)
Definition along (F : family) (c t : list R) (i k : nat) : R := sumn (f_params F) (fun e => nth e c 0 * f_effect F t e i k).
Lemma along_linear F c t i k G : length c = f_params F -> linear (f_params F) G -> (forall e, f_effect F t e i k = G (unit_vector (f_params F) e)) -> along F c t i k = G c.
Proof. intros Lc HG HE. unfold along. rewrite (HG c Lc). apply sumn_ext. intros e _. rewrite HE. ring. Qed.
(** For every item and category a direction in which the logit of that category alone moves, up to a constant. *)
Definition counting (F : family) (i k : nat) (c : list R) (delta : R) : Prop :=
  length c = f_params F /\ forall t i' k', length t = f_lv F -> (k' < nth i' (f_cats F) O)%nat ->
    along F c t i' k' = if (i' =? i)%nat then (if (k' =? k)%nat then 1 else 0) - delta else 0.
Lemma counting_exists F i k : parametric F -> (k < nth i (f_cats F) O)%nat -> exists c delta, counting F i k c delta.
Proof.
  intros [nanl items Hi|nanl lv free H1 H2 H3|nanl cats lv free H1 H2 H3 H4 H5|nanl cats lv rel H1 H2 H3 H4 H5] Hk.
  - cbn [opl_family f_cats] in Hk. assert (E2 := nth_repeat_two _ _ _ Hk). rewrite E2 in Hk. assert (HI : (i < items)%nat) by (destruct (Nat.lt_ge_cases i items); [assumption|]; rewrite nth_overflow in E2 by (now rewrite repeat_length); discriminate).
    set (s := if (k =? 1)%nat then 1 else -1). exists (map (fun j => if (j =? i)%nat then s else 0) (seq 0 items)), (if (k =? 1)%nat then 0 else 1). split; [cbn [opl_family f_params]; now rewrite map_length, seq_length|].
    intros t i' k' Lt Hk'. cbn [opl_family f_cats] in Hk'. assert (E2' := nth_repeat_two _ _ _ Hk'). rewrite E2' in Hk'. assert (HI' : (i' < items)%nat) by (destruct (Nat.lt_ge_cases i' items); [assumption|]; rewrite nth_overflow in E2' by (now rewrite repeat_length); discriminate).
    rewrite (along_linear _ _ t i' k' (fun v => INR k' * nth i' v 0)); [|cbn [opl_family f_params]; now rewrite map_length, seq_length|apply linear_scal; apply linear_nth|reflexivity].
    rewrite nth_map_seq by exact HI'. destruct (i' =? i)%nat; [|ring]. unfold s. destruct k as [|[|k]]; [| |lia]; (destruct k' as [|[|k']]; [| |lia]); cbn [Nat.eqb INR]; ring.
  - cbn [tpl_family f_cats] in Hk. assert (E2 := nth_repeat_two _ _ _ Hk). rewrite E2 in Hk. assert (HI : (i < length free)%nat) by (destruct (Nat.lt_ge_cases i (length free)); [assumption|]; rewrite nth_overflow in E2 by (now rewrite repeat_length); discriminate).
    set (ns := ctrue (concat free)). set (s := if (k =? 1)%nat then 1 else -1). set (c := repeat 0 ns ++ map (fun j => if (j =? i)%nat then s else 0) (seq 0 (length free))).
    assert (Lc : length c = f_params (tpl_family nanl lv free)) by (cbn [tpl_family f_params]; unfold c; rewrite app_length, repeat_length, map_length, seq_length; reflexivity).
    exists c, (if (k =? 1)%nat then 0 else 1). split; [exact Lc|].
    intros t i' k' Lt Hk'. cbn [tpl_family f_cats] in Hk'. assert (E2' := nth_repeat_two _ _ _ Hk'). rewrite E2' in Hk'. assert (HI' : (i' < length free)%nat) by (destruct (Nat.lt_ge_cases i' (length free)); [assumption|]; rewrite nth_overflow in E2' by (now rewrite repeat_length); discriminate).
    rewrite (along_linear _ _ t i' k' (fun v => INR k' * (predictor lv (slope free (firstn ns v) i') t + nth i' (skipn ns v) 0))); [|exact Lc|apply linear_scal; apply linear_plus; [apply linear_predictor; intro d; apply linear_slope|apply linear_skip]|reflexivity].
    unfold c. rewrite firstn_exact, skipn_exact by apply repeat_length. rewrite zero_predictor by (intro d; apply zero_slope). rewrite nth_map_seq by exact HI'.
    destruct (i' =? i)%nat; [|ring]. unfold s. destruct k as [|[|k]]; [| |lia]; (destruct k' as [|[|k']]; [| |lia]); cbn [Nat.eqb INR]; ring.
  - cbn [gpc_family f_cats] in Hk. set (ns := ctrue (concat free)). set (delta := if (k =? 0)%nat then 1 else 0). set (c := repeat 0 ns ++ place (map pred cats) i (fun j => (if (S j =? k)%nat then 1 else 0) - delta)).
    assert (Lc : length c = f_params (gpc_family nanl cats lv free)) by (cbn [gpc_family f_params]; unfold c; rewrite app_length, repeat_length, place_length; reflexivity).
    exists c, delta. split; [exact Lc|]. intros t i' k' Lt Hk'. cbn [gpc_family f_cats] in Hk'.
    rewrite (along_linear _ _ t i' k' (fun v => INR k' * predictor lv (slope free (firstn ns v) i') t + intercept cats (skipn ns v) i' k')); [|exact Lc|apply linear_plus; [apply linear_scal; apply linear_predictor; intro d; apply linear_slope|apply linear_intercept]|reflexivity].
    unfold c. rewrite firstn_exact, skipn_exact by apply repeat_length. rewrite zero_predictor by (intro d; apply zero_slope).
    destruct k' as [|k'].
    + unfold intercept. cbn [Nat.leb andb INR]. unfold delta. destruct (i' =? i)%nat; [|ring]. rewrite (Nat.eqb_sym 0 k). destruct (k =? 0)%nat; ring.
    + rewrite place_intercept by lia. cbn [Nat.sub]. rewrite Nat.sub_0_r. cbv beta. destruct (i' =? i)%nat; [|ring]. rewrite Rmult_0_r, Rplus_0_l. reflexivity.
  - cbn [nrm_family f_cats] in Hk. set (ns := nrm_slopes cats lv rel). set (K := nth i cats O) in *. set (delta := / INR K). assert (HK : INR K <> 0) by (apply not_0_INR; lia).
    set (l := fun j => (if (S j =? k)%nat then 1 else 0) - delta). set (c := repeat 0 ns ++ place (map pred cats) i l).
    assert (Lc : length c = f_params (nrm_family nanl cats lv rel)) by (cbn [nrm_family f_params]; unfold c; rewrite app_length, repeat_length, place_length; reflexivity).
    exists c, delta. split; [exact Lc|]. intros t i' k' Lt Hk'. cbn [nrm_family f_cats] in Hk'.
    rewrite (along_linear _ _ t i' k' (fun v => predictor lv (nrm_slope (nrm_of cats lv rel v) i' k') t + nrm_intercept (nrm_of cats lv rel v) i' k')); [|exact Lc|apply linear_plus; [apply linear_predictor; intro d; apply linear_nrm_slope|apply linear_nrm_intercept]|reflexivity].
    assert (EF : firstn ns c = repeat 0 ns) by (unfold c; apply firstn_exact, repeat_length). assert (ES : skipn ns c = place (map pred cats) i l) by (unfold c; apply skipn_exact, repeat_length).
    rewrite zero_predictor.
    2:{ intro d. assert (Z : forall j, nrm_free_slope (nrm_of cats lv rel c) i' j d = 0) by (intro j; unfold nrm_free_slope, nrm_of; cbn [nrm_rel nrm_cats nrm_w]; fold ns; rewrite EF; now destruct (nth d (nth i' rel []) false); rewrite ?zero_nth).
        unfold nrm_slope. destruct (k' =? 0)%nat; [|apply Z]. rewrite (sumn_ext _ _ (fun _ => 0)) by (intros; apply Z). rewrite sumn_0. ring. }
    unfold nrm_intercept, nrm_of. cbn [nrm_cats nrm_b]. fold ns. rewrite ES. destruct k' as [|k']; cbn [Nat.eqb].
    + rewrite (sumn_ext _ _ (fun j => if (i' =? i)%nat then l j else 0)) by (intros j Hj; rewrite place_intercept by lia; cbn [Nat.sub]; now rewrite Nat.sub_0_r).
      destruct (Nat.eqb_spec i' i) as [-> |]; [|rewrite sumn_0; ring]. fold K. unfold l. rewrite sumn_minus, sumn_const.
      assert (EK : INR (K - 1) = INR K - 1) by (rewrite minus_INR by lia; reflexivity). rewrite EK.
      destruct k as [|k]; cbn [Nat.eqb].
      * rewrite sumn_0. unfold delta. field. exact HK.
      * rewrite (sumn_single (K - 1) k); [|lia|intros j _ Hne; destruct (Nat.eqb_spec j k); [congruence|reflexivity]]. rewrite Nat.eqb_refl. unfold delta. field. exact HK.
    + rewrite place_intercept by lia. cbn [Nat.sub]. rewrite Nat.sub_0_r. unfold l. destruct (i' =? i)%nat; [|ring]. rewrite Rplus_0_l. reflexivity.
Qed.
(** A direction in which the slope of item [i] on latent variable [d] moves. *)
Definition slope_direction (F : family) (i d : nat) (c : list R) : Prop :=
  length c = f_params F /\ forall t i' k', length t = f_lv F -> (k' < nth i' (f_cats F) O)%nat -> along F c t i' k' = if (i' =? i)%nat then INR k' * nth d t 0 else 0.
Lemma placed_predictor free i d i' lv t : nth d (nth i free []) false = true -> Forall (fun r => length r = lv) free ->
  predictor lv (slope free (place (map ctrue free) i (fun j => if (j =? ctrue (firstn d (nth i free [])))%nat then 1 else 0)) i') t = if (i' =? i)%nat then nth d t 0 else 0.
Proof.
  intros Hd HF. unfold predictor. rewrite (sumn_ext lv _ (fun e => (if (i' =? i)%nat && (e =? d)%nat then 1 else 0) * nth e t 0)) by (intros e _; now rewrite place_slope).
  destruct (i' =? i)%nat; cbn [andb].
  - assert (HI : (i < length free)%nat) by (destruct (Nat.lt_ge_cases i (length free)); [assumption|]; rewrite (nth_overflow free) in Hd by assumption; destruct d; discriminate).
    assert (HL : (d < lv)%nat).
    { rewrite Forall_forall in HF. rewrite <- (HF (nth i free []) (nth_In free [] HI)). destruct (Nat.lt_ge_cases d (length (nth i free []))); [assumption|]. rewrite nth_overflow in Hd by assumption. discriminate. }
    rewrite (sumn_single lv d); [rewrite Nat.eqb_refl; ring|exact HL|intros e _ Hne; destruct (Nat.eqb_spec e d); [congruence|ring]].
  - rewrite (sumn_ext lv _ (fun _ => 0)) by (intros; ring). apply sumn_0.
Qed.
Lemma slope_tpl nanl lv free i d : Forall (fun r => length r = lv) free -> nth d (nth i free []) false = true -> exists c, slope_direction (tpl_family nanl lv free) i d c.
Proof.
  intros HF Hd. set (ns := ctrue (concat free)). set (w := place (map ctrue free) i (fun j => if (j =? ctrue (firstn d (nth i free [])))%nat then 1 else 0)). set (c := w ++ repeat 0 (length free)).
  assert (Lw : length w = ns) by (unfold w, ns; now rewrite place_length, ctrue_concat).
  assert (Lc : length c = f_params (tpl_family nanl lv free)) by (cbn [tpl_family f_params]; unfold c; rewrite app_length, repeat_length, Lw; reflexivity).
  exists c. split; [exact Lc|]. intros t i' k' Lt Hk'.
  rewrite (along_linear _ _ t i' k' (fun v => INR k' * (predictor lv (slope free (firstn ns v) i') t + nth i' (skipn ns v) 0))); [|exact Lc|apply linear_scal; apply linear_plus; [apply linear_predictor; intro e; apply linear_slope|apply linear_skip]|reflexivity].
  unfold c. rewrite firstn_exact, skipn_exact by exact Lw. rewrite zero_nth. unfold w. rewrite placed_predictor by assumption. destruct (i' =? i)%nat; ring.
Qed.
Lemma slope_gpc nanl cats lv free i d : Forall (fun r => length r = lv) free -> nth d (nth i free []) false = true -> exists c, slope_direction (gpc_family nanl cats lv free) i d c.
Proof.
  intros HF Hd. set (ns := ctrue (concat free)). set (w := place (map ctrue free) i (fun j => if (j =? ctrue (firstn d (nth i free [])))%nat then 1 else 0)). set (c := w ++ repeat 0 (list_sum (map pred cats))).
  assert (Lw : length w = ns) by (unfold w, ns; now rewrite place_length, ctrue_concat).
  assert (Lc : length c = f_params (gpc_family nanl cats lv free)) by (cbn [gpc_family f_params]; unfold c; rewrite app_length, repeat_length, Lw; reflexivity).
  exists c. split; [exact Lc|]. intros t i' k' Lt Hk'.
  rewrite (along_linear _ _ t i' k' (fun v => INR k' * predictor lv (slope free (firstn ns v) i') t + intercept cats (skipn ns v) i' k')); [|exact Lc|apply linear_plus; [apply linear_scal; apply linear_predictor; intro e; apply linear_slope|apply linear_intercept]|reflexivity].
  unfold c. rewrite firstn_exact, skipn_exact by exact Lw. rewrite zero_intercept. unfold w. rewrite placed_predictor by assumption. destruct (i' =? i)%nat; ring.
Qed.

(** ** The equations along a direction *)
Lemma discrepancy_along F c row t v : sumn (f_params F) (fun e => nth e c 0 * discrepancy F row t v e) = observed_effect (along F c t) row - expected_effect (along F c t) (f_p F v t) (f_cats F) row.
Proof.
  unfold discrepancy, observed_effect, expected_effect, effect_at, along.
  rewrite (sumn_ext (f_params F) _ (fun e => sumn (length row) (fun i => match answer (nth i row None) with None => 0 | Some k => nth e c 0 * f_effect F t e i k end - match answer (nth i row None) with None => 0 | Some _ => sumn (nth i (f_cats F) O) (fun k => nth e c 0 * f_effect F t e i k * f_p F v t i k) end))).
  - rewrite sumn_swap, <- sumn_minus. apply sumn_ext. intros i _. rewrite sumn_minus. destruct (answer (nth i row None)) as [k|].
    + f_equal. rewrite sumn_swap. apply sumn_ext. intros j _. now rewrite sumn_scal_r.
    + rewrite sumn_0. reflexivity.
  - intros e _. rewrite <- sumn_minus, <- sumn_scal. apply sumn_ext. intros i _. destruct (answer (nth i row None)) as [k|]; [|ring].
    rewrite Rmult_minus_distr_l. f_equal. rewrite <- sumn_scal. apply sumn_ext. intros; ring.
Qed.
Lemma along_one F i f c row t v : (forall t i' k', length t = f_lv F -> (k' < nth i' (f_cats F) O)%nat -> along F c t i' k' = if (i' =? i)%nat then f t k' else 0) ->
  length t = f_lv F -> legal_row (f_cats F) row -> (i < length row)%nat ->
  observed_effect (along F c t) row - expected_effect (along F c t) (f_p F v t) (f_cats F) row =
    match answer (nth i row None) with Some j => f t j - sumn (nth i (f_cats F) O) (fun k => f t k * f_p F v t i k) | None => 0 end.
Proof.
  intros HA Lt HL Hi. unfold observed_effect, expected_effect. rewrite <- sumn_minus. rewrite (sumn_single (length row) i).
  - destruct (answer (nth i row None)) as [j|] eqn:E; [|ring]. destruct (legal_answer _ _ _ _ HL E) as [Hj _]. rewrite HA, Nat.eqb_refl by assumption. f_equal. apply sumn_ext. intros k Hk. now rewrite HA, Nat.eqb_refl.
  - exact Hi.
  - intros i' _ Hne. destruct (answer (nth i' row None)) as [j|] eqn:E; [|ring]. destruct (legal_answer _ _ _ _ HL E) as [Hj _]. assert (EN : (i' =? i)%nat = false) by (now apply Nat.eqb_neq). rewrite HA, EN by assumption.
    rewrite (sumn_ext _ _ (fun _ => 0)); [rewrite sumn_0; ring|]. intros k Hk. rewrite HA, EN by assumption. ring.
Qed.
Lemma family_sums F v t i : parametric F -> length v = f_params F -> length t = f_lv F -> (0 < nth i (f_cats F) O)%nat -> sumn (nth i (f_cats F) O) (fun k => f_p F v t i k) = 1.
Proof.
  intros HF Lv Lt HK. destruct (family_soft F HF) as (off & E). rewrite (sumn_ext _ _ (category_probability (nth i (f_cats F) O) (lin (f_params F) (fun i k e => f_effect F t e i k) (off t) i v))); [now apply category_probability_sum|].
  intros k Hk. exact (E t Lt v i k Lv Hk).
Qed.
Lemma count_row F i k c delta row t v : parametric F -> counting F i k c delta -> length v = f_params F -> length t = f_lv F -> legal_row (f_cats F) row -> (i < length row)%nat -> (k < nth i (f_cats F) O)%nat ->
  sumn (f_params F) (fun e => nth e c 0 * discrepancy F row t v e) = match answer (nth i row None) with Some j => (if (j =? k)%nat then 1 else 0) - f_p F v t i k | None => 0 end.
Proof.
  intros HF [_ HC] Lv Lt HL Hi Hk. rewrite discrepancy_along. rewrite (along_one F i (fun _ k' => (if (k' =? k)%nat then 1 else 0) - delta) c row t v HC Lt HL Hi).
  destruct (answer (nth i row None)) as [j|]; [|reflexivity]. rewrite (sumn_ext _ _ (fun k' => (if (k' =? k)%nat then 1 else 0) * f_p F v t i k' - delta * f_p F v t i k')) by (intros; ring).
  rewrite sumn_minus, sumn_scal, family_sums by (auto; lia). rewrite (sumn_single _ k); [rewrite Nat.eqb_refl; ring|exact Hk|]. intros k' _ Hne. destruct (Nat.eqb_spec k' k); [congruence|ring].
Qed.
Lemma slope_row F i d c row t v : parametric F -> slope_direction F i d c -> length v = f_params F -> length t = f_lv F -> legal_row (f_cats F) row -> (i < length row)%nat ->
  sumn (f_params F) (fun e => nth e c 0 * discrepancy F row t v e) =
    match answer (nth i row None) with Some j => nth d t 0 * (INR j - sumn (nth i (f_cats F) O) (fun k => INR k * f_p F v t i k)) | None => 0 end.
Proof.
  intros HF [_ HC] Lv Lt HL Hi. rewrite discrepancy_along. rewrite (along_one F i (fun t k' => INR k' * nth d t 0) c row t v HC Lt HL Hi).
  destruct (answer (nth i row None)) as [j|]; [|reflexivity]. rewrite Rmult_minus_distr_l, <- sumn_scal. f_equal; [ring|]. apply sumn_ext. intros; ring.
Qed.
Lemma combine_equations n (c D : nat -> R) : (forall e, (e < n)%nat -> D e = 0) -> sumn n (fun e => c e * D e) = 0.
Proof. intro H. rewrite (sumn_ext n _ (fun _ => 0)); [apply sumn_0|]. intros e He. rewrite H by exact He. ring. Qed.
Lemma combine_swap n N (c : nat -> R) (D : nat -> nat -> R) : sumn n (fun e => c e * sumn N (fun r => D r e)) = sumn N (fun r => sumn n (fun e => c e * D r e)).
Proof. rewrite (sumn_ext n _ (fun e => sumn N (fun r => c e * D r e))) by (intros; now rewrite sumn_scal). apply sumn_swap. Qed.
