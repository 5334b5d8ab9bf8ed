(** Population difficulty and discrimination. *)
From Verif Require Import Base BaseFacts RBase RFacts M_Data M_Logit S_Logit P_Logit P_Logit2 P_Logit3 P_Logit4 M_Lik M_Scale S_Scale P_Scale4 M_Pop S_Pop P_Pop1 P_Pop4 P_Spline4.
Import List.
Local Open Scope R_scope.

(** Unscaled expected score of an item. *)
Definition raw_score (M : nat) (mc : option (list Z)) (p : nat -> nat -> R) (i : nat) : R :=
  match mc with
  | Some (z :: key) => p i (Z.to_nat (nth i (z :: key) 0%Z))
  | _ => sumn M (fun k => INR k * p i k)
  end.
Lemma expected_scores_total cats M mc : valid_key cats mc -> (forall i K, nth_error cats i = Some K -> (K <= M)%nat) ->
  exists tab, item_score_table (length cats) M mc = Ok tab /\ length tab = length cats.
Proof.
  intros HV HM. unfold item_score_table. destruct mc as [[|z key]|]; try (eexists; split; [reflexivity|apply repeat_length]).
  destruct HV as [L G]. rewrite L, Nat.ltb_irrefl.
  rewrite (mapM_total _ (fun z => upd (Z.to_nat z) 1 (repeat 0 M))).
  - cbn [rmap]. eexists; split; [reflexivity|]. rewrite app_length, map_length, repeat_length. lia.
  - intros a Ha. apply In_nth_error in Ha as (i & Hi). pose proof (G i a Hi) as R1.
    destruct (nth_error cats i) as [K|] eqn:EK.
    2:{ apply nth_error_None in EK. assert (i < length (z :: key))%nat by (apply nth_error_Some; congruence). lia. }
    rewrite (nth_error_nth _ _ _ EK) in R1. specialize (HM i K EK).
    destruct (Z.leb_spec 0 a); [|lia]. destruct (Z.ltb_spec a (Z.of_nat M)); [reflexivity|lia].
Qed.
Lemma scores_table cats M mc probs p : table cats M probs p -> valid_key cats mc -> (forall i K, nth_error cats i = Some K -> (K <= M)%nat) ->
  exists es, expected_item_scores (length cats) M mc probs = Ok es /\ length es = length probs /\
    forall r row, nth_error es r = Some row -> length row = length cats /\
      forall i, (i < length cats)%nat -> nth_error row i = Some (Some (raw_score M mc (p r) i)).
Proof.
  intros HT HV HM. destruct (expected_scores_total cats M mc HV HM) as (tab & Et & Lt).
  unfold expected_item_scores. rewrite Et. cbn [rmap]. eexists. split; [reflexivity|]. split; [now rewrite map_length|].
  intros r row Hr. pose proof Hr as Hr0. rewrite nth_error_map in Hr. destruct (nth_error probs r) as [resp|] eqn:Ep; [|discriminate]. cbn [option_map] in Hr.
  assert (Er : row = zip_with (fun p s => osum (zip_with (fun p x => olift2 Rmult p (Some x)) p s)) resp tab) by congruence.
  destruct (HT r resp Ep) as [L G]. split; [rewrite Er, zip_with_length; lia|].
  intros i Hi. destruct (nth_error cats i) as [K|] eqn:EK; [|apply nth_error_None in EK; lia].
  destruct (nth_error resp i) as [c|] eqn:Ec; [|apply nth_error_None in Ec; lia].
  destruct (G i K c EK Ec) as (HK & Lc & Hc & V).
  assert (A3 : forall k, (k < M)%nat -> at3 probs r i k = Some (Some (p r i k))).
  { intros k Hk. unfold at3, at2. rewrite Ep, Ec. now apply Hc. }
  assert (X : exists out, expected_item_scores (length cats) M mc probs = Ok out /\ at2 out r i = Some (Some (raw_score M mc (p r) i))).
  { unfold raw_score. destruct mc as [[|z key]|].
    - destruct (expected_item_none (length cats) M probs r i (p r i) Hi A3 ltac:(lia)) as (out & E1 & E2). exists out. split; [exact E1|exact E2].
    - destruct HV as [LK GK]. destruct (nth_error (z :: key) i) as [zi|] eqn:Ez; [|apply nth_error_None in Ez; lia].
      destruct (expected_item_mc (length cats) M (z :: key) probs r i (p r i) zi LK) as (out & E1 & E2); auto; [|lia|].
      + intros a Ha. apply In_nth_error in Ha as (j & Hj). pose proof (GK j a Hj). destruct (nth_error cats j) as [Kj|] eqn:EKj.
        * specialize (HM j Kj EKj). rewrite (nth_error_nth _ _ _ EKj) in H. lia.
        * apply nth_error_None in EKj. assert (j < length (z :: key))%nat by (apply nth_error_Some; congruence). lia.
      + exists out. split; [exact E1|]. rewrite (nth_error_nth _ _ _ Ez). exact E2.
    - destruct (expected_item_none (length cats) M probs r i (p r i) Hi A3 ltac:(lia)) as (out & E1 & E2). exists out. split; [exact E1|exact E2]. }
  destruct X as (out & E1 & E2). unfold expected_item_scores in E1. rewrite Et in E1. cbn [rmap] in E1. assert (Eo : out = map (fun resp => zip_with (fun p s => osum (zip_with (fun p x => olift2 Rmult p (Some x)) p s)) resp tab) probs) by congruence.
  unfold at2 in E2. rewrite Eo, nth_error_map, Ep in E2. cbn [option_map] in E2. rewrite Er. exact E2.
Qed.
Lemma share_raw M mc K p i : keyed mc = false -> expected_share M mc K p i = raw_score M mc p i / (INR K - 1).
Proof. unfold keyed, expected_share, raw_score. destruct mc as [[|z key]|]; intro; try discriminate; reflexivity. Qed.
Lemma share_keyed M mc K p i : keyed mc = true -> expected_share M mc K p i = raw_score M mc p i.
Proof. unfold keyed, expected_share, raw_score. destruct mc as [[|z key]|]; intro; try discriminate; reflexivity. Qed.

Lemma omean_numbers n (f : nat -> R) l : (0 < n)%nat -> length l = n -> (forall r, (r < n)%nat -> nth_error l r = Some (Some (f r))) -> omean l = Some (sumn n f / INR n).
Proof.
  intros Hn Hl H. unfold omean. destruct l as [|a l']; [cbn in Hl; lia|]. set (l := a :: l') in *. rewrite (osum_index l n f Hl H), Hl. reflexivity.
Qed.
Lemma omean_nan l r : nth_error l r = Some None -> omean l = None.
Proof.
  intro H. unfold omean. destruct l as [|a l']; [reflexivity|]. set (l := a :: l') in *. replace (osum l) with (@None R); [reflexivity|]. symmetry.
  clearbody l. revert r H. induction l as [|b l IH]; intros [|r] H; cbn in *; try discriminate.
  - injection H as ->. reflexivity.
  - rewrite (IH r H). destruct b; reflexivity.
Qed.

Definition scaled_cell (mc : option (list Z)) (e : option R) (K : nat) : option R := if keyed mc then e else by_maximum e K.
Lemma difficulty_entry cats M mc probs p : table cats M probs p -> valid_key cats mc -> (forall i K, nth_error cats i = Some K -> (K <= M)%nat) ->
  exists ds, population_difficulty cats M mc probs = Ok ds /\ length ds = length cats /\
    forall i K, nth_error cats i = Some K -> probs <> [] ->
      (keyed mc = true \/ (2 <= K)%nat -> nth_error ds i = Some (Some (sumn (length probs) (fun r => 1 - expected_share M mc K (p r) i) / INR (length probs)))) /\
      (keyed mc = false -> K = 1%nat -> nth_error ds i = Some None).
Proof.
  intros HT HV HM. destruct (scores_table cats M mc probs p HT HV HM) as (es & Ee & Le & G).
  unfold population_difficulty. rewrite Ee. cbn [rmap]. eexists. split; [reflexivity|].
  split; [unfold mean_rows; now rewrite map_length, seq_length|].
  intros i K EK Hne. assert (Hi : (i < length cats)%nat) by (apply nth_error_Some; congruence).
  assert (HN : (0 < length probs)%nat) by (destruct probs; [congruence|cbn; lia]).
  unfold mean_rows. rewrite nth_error_map_seq by auto. cbn [Nat.add]. rewrite map_map.
  assert (Hcol : forall r, (r < length probs)%nat -> nth_error (map (fun row => nth i (if keyed mc then map (option_map (fun x => 1 - x)) row
       else zip_with (fun e K => option_map (fun x => 1 - x) (by_maximum e K)) row cats) None) es) r =
       Some (option_map (fun x => 1 - x) (scaled_cell mc (Some (raw_score M mc (p r) i)) K))).
  { intros r Hr. rewrite nth_error_map. destruct (nth_error es r) as [row|] eqn:Er; [|apply nth_error_None in Er; lia]. cbn [option_map].
    destruct (G r row Er) as [L1 L2]. specialize (L2 i Hi). f_equal. unfold scaled_cell. destruct (keyed mc).
    - apply nth_error_nth. rewrite nth_error_map, L2. reflexivity.
    - apply nth_error_nth. rewrite nth_error_zip_with, L2, EK. reflexivity. }
  split.
  - intro HKK. f_equal. apply omean_numbers; [exact HN|now rewrite map_length|]. intros r Hr. rewrite Hcol by auto. f_equal. unfold scaled_cell.
    destruct (keyed mc) eqn:Ek.
    + rewrite share_keyed by auto. reflexivity.
    + rewrite share_raw by auto. unfold by_maximum. destruct (Nat.eqb_spec K 1); [destruct HKK; [discriminate|lia]|]. reflexivity.
  - intros Ek ->. f_equal. apply (omean_nan _ 0). rewrite Hcol by auto. unfold scaled_cell. rewrite Ek. reflexivity.
Qed.

(** Shares lie strictly between 0 and 1. *)
Lemma share_bounds K M mc p i cats : nth_error cats i = Some K -> (2 <= K <= M)%nat -> valid_key cats mc -> valid_distribution K M (p i) ->
  0 < expected_share M mc K p i < 1.
Proof.
  intros EK HK HV V. pose proof V as (V0 & V1 & V2 & V3).
  assert (P1 : forall k, (k < K)%nat -> p i k < 1).
  { intros k Hk. assert (exists j, (j < K)%nat /\ j <> k) as (j & Hj & Hne) by (destruct k; [exists 1%nat|exists 0%nat]; lia).
    pose proof (sumn_minus M (p i) (fun a => if (a =? k)%nat then p i k else 0)) as S1.
    rewrite V1, (sumn_single M k (fun a => if (a =? k)%nat then p i k else 0)) in S1; [|lia|intros a Ha Hna; destruct (Nat.eqb_spec a k); [congruence|reflexivity]]. rewrite Nat.eqb_refl in S1.
    assert (0 < sumn M (fun a => p i a - (if (a =? k)%nat then p i k else 0))); [|lra].
    apply (sumn_pos_one M _ j); [|lia|].
    - intros a Ha. destruct (Nat.eqb_spec a k) as [->|]; [lra|]. pose proof (V0 a Ha). lra.
    - destruct (Nat.eqb_spec j k); [congruence|]. pose proof (V2 j Hj). lra. }
  assert (NK : 0 < INR K - 1) by (pose proof (le_INR 2 K ltac:(lia)) as H; cbn in H; lra).
  unfold expected_share. destruct mc as [[|z key]|].
  2:{ destruct HV as [L G]. assert (Hi : (i < length cats)%nat) by (apply nth_error_Some; congruence).
      destruct (nth_error (z :: key) i) as [zi|] eqn:Ez; [|apply nth_error_None in Ez; lia].
      rewrite (nth_error_nth _ _ _ Ez). pose proof (G i zi Ez) as R1. rewrite (nth_error_nth _ _ _ EK) in R1.
      split; [apply V2; lia|apply P1; lia]. }
  all: rewrite (sumn_truncate K M) by (lia || (intros k Hk; rewrite V3 by lia; ring)).
  all: assert (SK : sumn K (p i) = 1) by (rewrite <- V1; symmetry; apply sumn_truncate; [lia|intros k Hk; apply V3; lia]).
  all: assert (A : 0 < sumn K (fun k => INR k * p i k)) by
    (apply (sumn_pos_one K _ 1); [intros k Hk; pose proof (pos_INR k); pose proof (V2 k Hk); nra|lia|pose proof (V2 1%nat ltac:(lia)); cbn [INR]; lra]).
  all: assert (B : 0 < sumn K (fun k => (INR K - 1 - INR k) * p i k)) by
    (apply (sumn_pos_one K _ 0); [intros k Hk; pose proof (le_INR (S k) K ltac:(lia)) as H; rewrite S_INR in H; pose proof (V2 k Hk); nra|lia|pose proof (V2 0%nat ltac:(lia)); cbn [INR]; nra]).
  all: rewrite (sumn_ext K (fun k => (INR K - 1 - INR k) * p i k) (fun k => (INR K - 1) * p i k - INR k * p i k)) in B by (intros; ring).
  all: rewrite sumn_minus, sumn_scal, SK in B.
  all: split; [apply Rdiv_lt_0_compat; assumption|].
  all: apply (Rmult_lt_reg_r (INR K - 1)); [assumption|]; unfold Rdiv; rewrite Rmult_assoc, Rinv_l by lra; lra.
Qed.
Lemma mean_between n (f : nat -> R) a b : (0 < n)%nat -> (forall k, (k < n)%nat -> a < f k < b) -> a < sumn n f / INR n < b.
Proof.
  intros Hn H. assert (HI : 0 < INR n) by (now apply lt_0_INR).
  assert (A : sumn n (fun _ => a) < sumn n f) by (apply sumn_lt; auto; intros k Hk; now apply H).
  assert (B : sumn n f < sumn n (fun _ => b)) by (apply sumn_lt; auto; intros k Hk; now apply H).
  rewrite sumn_const in A, B. split; apply (Rmult_lt_reg_r (INR n)); auto; unfold Rdiv; rewrite Rmult_assoc, Rinv_l by lra; lra.
Qed.

(** ** Gradients *)
Lemma set_entry_nth thetas r d x s : (r < length thetas)%nat -> nth s (set_entry thetas r d x) [] = if (s =? r)%nat then upd d x (nth r thetas []) else nth s thetas [].
Proof.
  intro Hr. unfold set_entry. destruct (Nat.eqb_spec s r) as [->|Hne].
  - apply nth_error_nth. now apply nth_error_upd_eq.
  - destruct (Nat.lt_ge_cases s (length thetas)) as [Hs|Hs].
    + apply nth_error_nth. rewrite nth_error_upd_neq by auto. now apply nth_error_nth_lt.
    + rewrite !nth_overflow by (rewrite ?upd_length; lia). reflexivity.
Qed.
Lemma set_entry_rows lv thetas r d x : (r < length thetas)%nat -> Forall (fun t => length t = lv) thetas -> Forall (fun t => length t = lv) (set_entry thetas r d x) /\ length (set_entry thetas r d x) = length thetas.
Proof.
  intros Hr HF. split; [|unfold set_entry; apply upd_length].
  apply Forall_forall. intros t Ht. apply In_nth_error in Ht as (s & Hs).
  assert (Hsl : (s < length thetas)%nat). { assert (s < length (set_entry thetas r d x))%nat by (apply nth_error_Some; congruence). unfold set_entry in H. now rewrite upd_length in H. }
  apply (nth_error_nth _ _ []) in Hs. rewrite set_entry_nth in Hs by auto. rewrite Forall_forall in HF.
  destruct (Nat.eqb_spec s r); subst t; [rewrite upd_length|]; apply HF, nth_In; lia.
Qed.

Section gradient.
  Variables (lv : nat) (cats : list nat) (M : nat) (mc : option (list Z)) (probs : list (list R) -> list (list (list (option R)))) (p : list R -> nat -> nat -> R).
  Hypothesis HR : row_model lv cats M probs p.
  Hypothesis HV : valid_key cats mc.
  Hypothesis HM : forall i K, nth_error cats i = Some K -> (K <= M)%nat.

  Lemma scaled_scores thetas : Forall (fun t => length t = lv) thetas ->
    exists es, item_scores_scaled cats M mc true probs thetas = Ok es /\ length es = length thetas /\
      forall r row, nth_error es r = Some row -> length row = length cats /\
        forall i K, nth_error cats i = Some K -> nth_error row i = Some (scaled_cell mc (Some (raw_score M mc (p (nth r thetas [])) i)) K).
  Proof.
    intro HF. destruct (HR thetas HF) as [L T]. destruct (scores_table cats M mc (probs thetas) _ T HV HM) as (es & Ee & Le & G).
    unfold item_scores_scaled. rewrite Ee. cbn [rmap]. eexists. split; [reflexivity|]. split; [rewrite map_length; congruence|].
    intros r row Hr. rewrite nth_error_map in Hr. destruct (nth_error es r) as [row0|] eqn:Er; [|discriminate]. cbn [option_map] in Hr.
    destruct (G r row0 Er) as [L1 L2]. rewrite andb_true_r in Hr. unfold scaled_cell.
    destruct (keyed mc); cbn [negb] in Hr; assert (row = _) by (symmetry; exact (f_equal (fun o => match o with Some v => v | None => [] end) Hr)); subst row.
    - split; [exact L1|]. intros i K EK. apply L2. apply nth_error_Some. congruence.
    - split; [rewrite zip_with_length; lia|]. intros i K EK. rewrite nth_error_zip_with, L2, EK by (apply nth_error_Some; congruence). reflexivity.
  Qed.
  Definition plain_scores (t : list (list R)) : list (list (option R)) := match item_scores_scaled cats M mc true probs t with Ok es => es | Err _ => [] end.
  Lemma sum_of_numbers thetas i K : Forall (fun t => length t = lv) thetas -> nth_error cats i = Some K -> (keyed mc = true \/ (2 <= K)%nat) ->
    sum_of plain_scores i thetas = Some (sumn (length thetas) (fun r => expected_share M mc K (p (nth r thetas [])) i)).
  Proof.
    intros HF EK HKK. destruct (scaled_scores thetas HF) as (es & Ee & Le & G). unfold sum_of, plain_scores. rewrite Ee.
    apply osum_index; [now rewrite map_length|]. intros r Hr. rewrite nth_error_map. destruct (nth_error es r) as [row|] eqn:Er; [|apply nth_error_None in Er; lia].
    cbn [option_map]. f_equal. destruct (G r row Er) as [_ L2]. apply nth_error_nth. rewrite (L2 i K EK). f_equal. unfold scaled_cell.
    destruct (keyed mc) eqn:Ek; [now rewrite share_keyed|]. rewrite share_raw by auto. unfold by_maximum. destruct (Nat.eqb_spec K 1); [destruct HKK; [discriminate|lia]|reflexivity].
  Qed.
  Lemma entry_gradient_is grad thetas r t i K d D : autograd_exact grad -> Forall (fun t => length t = lv) thetas -> nth_error thetas r = Some t ->
    nth_error cats i = Some K -> (keyed mc = true \/ (2 <= K)%nat) -> (d < lv)%nat ->
    derivable_pt_lim (fun x => expected_share M mc K (p (upd d x t)) i) (nth d t 0) D ->
    entry_gradient grad plain_scores i r d thetas = Some D.
  Proof.
    intros HG HF Hr EK HKK Hd HD. unfold entry_gradient. rewrite (sum_of_numbers thetas i K) by auto. f_equal.
    assert (Hrl : (r < length thetas)%nat) by (apply nth_error_Some; congruence).
    pose proof (nth_error_nth _ _ [] Hr) as Et. rewrite Et.
    set (C := sumn (length thetas) (fun s => if (s =? r)%nat then 0 else expected_share M mc K (p (nth s thetas [])) i)).
    apply HG. apply (derivable_ext (fun x => C + expected_share M mc K (p (upd d x t)) i)).
    - intro x. destruct (set_entry_rows lv thetas r d x Hrl HF) as [HF' HL']. rewrite (sum_of_numbers _ i K) by auto. rewrite HL'.
      pose proof (sumn_single (length thetas) r (fun s => if (s =? r)%nat then expected_share M mc K (p (upd d x t)) i else 0)) as S1. cbv beta in S1.
      rewrite Nat.eqb_refl in S1. rewrite <- S1; auto.
      + unfold C. rewrite <- sumn_plus. apply sumn_ext. intros s Hs. rewrite set_entry_nth by auto. rewrite Et. destruct (s =? r)%nat; ring.
      + intros k Hk Hne. destruct (Nat.eqb_spec k r); [congruence|reflexivity].
    - replace D with (0 + D) by ring. apply (derivable_pt_lim_plus (fun _ => C)); [apply derivable_pt_lim_const|exact HD].
  Qed.
  Lemma discrimination_entry grad thetas i K d (D : list R -> R) : autograd_exact grad -> Forall (fun t => length t = lv) thetas -> thetas <> [] ->
    nth_error cats i = Some K -> (keyed mc = true \/ (2 <= K)%nat) -> (d < lv)%nat ->
    (forall t, In t thetas -> derivable_pt_lim (fun x => expected_share M mc K (p (upd d x t)) i) (nth d t 0) (D t)) ->
    exists g, population_discrimination grad lv cats M mc probs thetas = Ok g /\ length g = length cats /\
      at2 g i d = Some (Some (population_mean D thetas)).
  Proof.
    intros HG HF Hne EK HKK Hd HD. destruct (scaled_scores thetas HF) as (es & Ee & _).
    unfold population_discrimination, expected_item_score_gradients. rewrite Ee. cbn [bind rmap]. eexists. split; [reflexivity|].
    split; [now rewrite map_length, seq_length|].
    assert (Hi : (i < length cats)%nat) by (apply nth_error_Some; congruence).
    unfold at2. rewrite nth_error_map_seq by auto. cbn [Nat.add]. unfold mean_rows. rewrite nth_error_map_seq by auto. cbn [Nat.add].
    rewrite !map_map. f_equal. unfold population_mean.
    rewrite (omean_numbers (length thetas) (fun r => D (nth r thetas []))).
    - do 2 f_equal. symmetry. apply rsum_index; [now rewrite map_length|]. intros r Hr. rewrite nth_error_map, (nth_error_nth_lt thetas r []) by auto. reflexivity.
    - destruct thetas; [congruence|cbn; lia].
    - now rewrite map_length, seq_length.
    - intros r Hr. rewrite nth_error_map_seq by auto. cbn [Nat.add]. f_equal. rewrite (nth_map_seq _ (length cats) i []) by auto. rewrite nth_map_seq by auto.
      pose proof (nth_error_nth_lt thetas r [] Hr) as Et.
      apply (entry_gradient_is grad thetas r (nth r thetas []) i K d); auto. apply HD. now apply nth_In.
  Qed.
  Lemma discrimination_nan grad thetas i d : Forall (fun t => length t = lv) thetas -> thetas <> [] ->
    nth_error cats i = Some 1%nat -> keyed mc = false -> (d < lv)%nat ->
    exists g, population_discrimination grad lv cats M mc probs thetas = Ok g /\ at2 g i d = Some None.
  Proof.
    intros HF Hne EK Hk Hd. destruct (scaled_scores thetas HF) as (es & Ee & Le & G).
    unfold population_discrimination, expected_item_score_gradients. rewrite Ee. cbn [bind rmap]. eexists. split; [reflexivity|].
    assert (Hi : (i < length cats)%nat) by (apply nth_error_Some; congruence).
    unfold at2. rewrite nth_error_map_seq by auto. cbn [Nat.add]. unfold mean_rows. rewrite nth_error_map_seq by auto. cbn [Nat.add].
    rewrite !map_map. f_equal. apply (omean_nan _ 0). assert (HN : (0 < length thetas)%nat) by (destruct thetas; [congruence|cbn; lia]).
    rewrite nth_error_map_seq by auto. cbn [Nat.add]. f_equal. rewrite (nth_map_seq _ (length cats) i []) by auto. rewrite nth_map_seq by auto.
    unfold entry_gradient. replace (sum_of _ i thetas) with (@None R); [reflexivity|]. symmetry. unfold sum_of. rewrite Ee.
    destruct es as [|row es]; [cbn in Le; lia|]. destruct (G 0%nat row eq_refl) as [_ L2]. cbn [map osum]. rewrite (nth_error_nth row i None (L2 i 1%nat EK)).
    unfold scaled_cell. rewrite Hk. reflexivity.
  Qed.
End gradient.

Lemma derivable_sum n (f : nat -> R -> R) (l : nat -> R) x : (forall k, (k < n)%nat -> derivable_pt_lim (f k) x (l k)) ->
  derivable_pt_lim (fun h => sumn n (fun k => f k h)) x (sumn n l).
Proof.
  induction n as [|n IH]; intro H; [apply derivable_pt_lim_const|]. cbn [sumn].
  apply (derivable_pt_lim_plus (fun h => sumn n (fun k => f k h)) (f n)); [apply IH; intros; apply H; lia|apply H; lia].
Qed.
Lemma derivable_shift f a l : derivable_pt_lim f a l -> derivable_pt_lim (fun h => f (a + h)) 0 l.
Proof.
  intros H eps He. destruct (H eps He) as (delta & Hd). exists delta. intros h Hh Hs. specialize (Hd h Hh Hs). rewrite Rplus_0_l, Rplus_0_r. exact Hd.
Qed.
Lemma derivable_div_const f x l c : derivable_pt_lim f x l -> derivable_pt_lim (fun h => f h / c) x (l / c).
Proof. intro H. apply (derivable_ext (fun h => / c * f h)); [intro; unfold Rdiv; ring|]. replace (l / c) with (/ c * l) by (unfold Rdiv; ring). now apply (derivable_pt_lim_scal f). Qed.
