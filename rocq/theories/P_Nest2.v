(** The partial credit model inside the nominal model. *)
From Verif Require Import Base BaseFacts RBase RFacts M_Logit S_Logit P_Logit P_Logit2 P_Logit3 P_Logit4 M_Lik S_Lik P_Lik5 M_Est M_Stat M_Scale S_Pop P_Pop6 M_Info S_Info P_Info1 P_Info2 P_Info3 P_Info4 P_Row S_Nest P_Nest1.
Import List.
Local Open Scope R_scope.

Lemma nth_concat_at {A} (ls : list (list A)) i j x : (j < length (nth i ls []))%nat ->
  nth (list_sum (map (@length A) (firstn i ls)) + j) (concat ls) x = nth j (nth i ls []) x.
Proof.
  revert i; induction ls as [|l ls IH]; intros [|i] Hj; cbn [nth length] in Hj; try lia; cbn [firstn map nth concat].
  - cbn [list_sum fold_right Nat.add]. now apply app_nth1.
  - change (list_sum (length l :: map (@length A) (firstn i ls))) with (length l + list_sum (map (@length A) (firstn i ls)))%nat.
    rewrite app_nth2 by lia. rewrite <- IH by exact Hj. f_equal. lia.
Qed.
Lemma length_concat_sum {A} (ls : list (list A)) : length (concat ls) = list_sum (map (@length A) ls).
Proof. induction ls as [|l ls IH]; [reflexivity|]. cbn [concat map]. rewrite app_length, IH. reflexivity. Qed.
Lemma nth_concat_const {A} (ls : list (list A)) c i j x : Forall (fun l => length l = c) ls -> (i < length ls)%nat -> (j < c)%nat ->
  nth (i * c + j) (concat ls) x = nth j (nth i ls []) x.
Proof.
  intros HF Hi Hj. pose proof (nth_error_nth_lt ls i [] Hi) as E. assert (L : length (nth i ls []) = c) by (rewrite Forall_forall in HF; apply HF; eapply nth_error_In; eauto).
  apply nth_error_nth. rewrite (nth_error_concat_const ls c i j _ HF E Hj). apply nth_error_nth_lt. lia.
Qed.
Lemma nth_mask_select (mask : list bool) (l : list R) d : length mask = length l -> nth d mask false = true -> nth (ctrue (firstn d mask)) (mask_select mask l) 0 = nth d l 0.
Proof.
  intros HL Hd. assert (Hlt : (d < length mask)%nat) by (destruct (Nat.lt_ge_cases d (length mask)); [assumption|rewrite nth_overflow in Hd by assumption; discriminate]).
  apply nth_error_nth. rewrite (nth_error_mask_select mask l d HL); [apply nth_error_nth_lt; lia|]. rewrite (nth_error_nth_lt mask d false Hlt). now f_equal.
Qed.
Lemma sumn_centred K : sumn (K - 1) (fun j => centred K (S j)) = (INR K - 1) / 2 \/ (K = 0)%nat.
Proof.
  destruct K as [|n]; [now right|left]. replace (S n - 1)%nat with n by lia. unfold centred.
  assert (E : forall q c, sumn q (fun j => INR (S j) - c) = INR q * (INR q + 1) / 2 - INR q * c).
  { induction q as [|q IH]; intro c; [cbn; lra|]. cbn [sumn]. rewrite IH, S_INR. field. }
  rewrite E, S_INR. field.
Qed.

Lemma sumn_minus_const n (f : nat -> R) c : sumn n (fun j => f j - c) = sumn n f - INR n * c.
Proof. induction n as [|n IH]; [cbn; ring|]. cbn [sumn]. rewrite IH, S_INR. ring. Qed.
Lemma sumn_from_first K (b : nat -> R) : (1 <= K)%nat -> sumn K b = b O + sumn (K - 1) (fun j => b (S j)).
Proof. intro H. destruct K as [|n]; [lia|]. rewrite sumn_S_first. do 2 f_equal. lia. Qed.

Section gpc_nominal.
  Context (m : poly) (Hwf : poly_wf m).
  Local Notation N := (gpc_as_nrm m).
  Local Notation K i := (nth i (p_cats m) O).
  Local Notation free i := (nth i (p_free m) []).
  Let row (i k : nat) := mask_select (free i) (map (fun d => centred (K i) k * slope (p_free m) (p_w m) i d) (seq 0 (p_lv m))).
  Let rows (i : nat) := concat (map (row i) (seq 1 (pred (K i)))).
  Lemma free_width i : (i < p_items m)%nat -> length (free i) = p_lv m.
  Proof using Hwf.
    intro Hi. destruct Hwf as (_ & _ & HL & HF & _). pose proof (nth_error_nth_lt (p_free m) i [] ltac:(lia)) as E. rewrite Forall_forall in HF. apply HF. eapply nth_error_In; eauto.
  Qed.
  Lemma row_length i k : (i < p_items m)%nat -> length (row i k) = ctrue (free i).
  Proof using Hwf. intro Hi. unfold row. apply mask_select_length. rewrite map_length, seq_length. now apply free_width. Qed.
  Lemma rows_length i : (i < p_items m)%nat -> length (rows i) = (pred (K i) * ctrue (free i))%nat.
  Proof using Hwf.
    intro Hi. unfold rows. rewrite (length_concat_const _ (ctrue (free i))); [now rewrite map_length, seq_length|].
    apply Forall_forall. intros l Hl. apply in_map_iff in Hl as (k & <- & _). now apply row_length.
  Qed.
  Lemma rows_offsets i : (i <= p_items m)%nat ->
    list_sum (map (@length R) (firstn i (map rows (seq 0 (p_items m))))) = list_sum (map (fun Kr => pred (fst Kr) * ctrue (snd Kr))%nat (firstn i (combine (p_cats m) (p_free m)))).
  Proof using Hwf.
    pose proof (proj1 (proj2 (proj2 Hwf))) as HL. induction i as [|i IH]; intro Hi; [reflexivity|].
    rewrite (firstn_S_nth (map rows (seq 0 (p_items m))) i (rows i)) by (rewrite nth_error_map_seq by lia; reflexivity).
    rewrite (firstn_S_nth (combine (p_cats m) (p_free m)) i (K i, free i)) by (apply nth_error_combine_some; apply nth_error_nth_lt; unfold p_items in *; lia).
    rewrite !map_app, !list_sum_app, IH by lia. cbn [map list_sum fold_right fst snd]. rewrite rows_length by lia. reflexivity.
  Qed.
  Lemma gpc_nrm_slope i k d : (i < p_items m)%nat -> (1 <= k < K i)%nat -> (d < p_lv m)%nat -> nrm_free_slope N i k d = centred (K i) k * slope (p_free m) (p_w m) i d.
  Proof using Hwf.
    intros Hi Hk Hd. unfold nrm_free_slope. cbn [gpc_as_nrm nrm_rel nrm_cats nrm_w]. destruct (nth d (free i) false) eqn:E; [|unfold slope; rewrite E; ring].
    change (concat (map _ (seq 0 (p_items m)))) with (concat (map rows (seq 0 (p_items m)))).
    rewrite <- rows_offsets, <- Nat.add_assoc by lia.
    assert (Er : nth i (map rows (seq 0 (p_items m))) [] = rows i) by (apply nth_map_seq; exact Hi).
    assert (Hd' : nth_error (free i) d = Some true) by (rewrite (nth_error_nth_lt (free i) d false) by (rewrite free_width; assumption); now f_equal).
    pose proof (ctrue_firstn_lt (free i) d Hd') as Hc.
    rewrite nth_concat_at; rewrite Er; [|rewrite rows_length by exact Hi; nia].
    unfold rows. rewrite nth_concat_const; [|apply Forall_forall; intros l Hl; apply in_map_iff in Hl as (q & <- & _); now apply row_length|rewrite map_length, seq_length; lia|exact Hc].
    rewrite (nth_error_nth (map (row i) (seq 1 (pred (K i)))) (pred k) [] (x := row i k)).
    - unfold row. rewrite nth_mask_select; [|rewrite map_length, seq_length; now apply free_width|exact E]. rewrite nth_map_seq by exact Hd. reflexivity.
    - rewrite nth_error_map_seq by lia. f_equal. f_equal. lia.
  Qed.
  Let offs (i k : nat) := intercept (p_cats m) (p_b m) i k - sumn (K i) (intercept (p_cats m) (p_b m) i) / INR (K i).
  Lemma offs_offsets i : (i <= p_items m)%nat ->
    list_sum (map (@length R) (firstn i (map (fun i => map (offs i) (seq 1 (pred (K i)))) (seq 0 (p_items m))))) = list_sum (firstn i (map pred (p_cats m))).
  Proof using.
    induction i as [|i IH]; intro Hi; [reflexivity|].
    rewrite (firstn_S_nth (map (fun i => map (offs i) (seq 1 (pred (K i)))) (seq 0 (p_items m))) i (map (offs i) (seq 1 (pred (K i))))) by (rewrite nth_error_map_seq by lia; reflexivity).
    rewrite (firstn_S_nth (map pred (p_cats m)) i (pred (K i))) by (rewrite nth_error_map, (nth_error_nth_lt (p_cats m) i O) by (unfold p_items in *; lia); reflexivity).
    rewrite !map_app, !list_sum_app, IH by lia. cbn [map list_sum fold_right]. rewrite map_length, seq_length. reflexivity.
  Qed.
  Lemma gpc_nrm_intercept i k : (i < p_items m)%nat -> (1 <= k < K i)%nat -> intercept (p_cats m) (nrm_b N) i k = offs i k.
  Proof using.
    intros Hi Hk. unfold intercept at 1. destruct (Nat.leb_spec 1 k); [|lia]. destruct (Nat.ltb_spec k (K i)); [|lia]. cbn [andb gpc_as_nrm nrm_b].
    change (concat (map _ (seq 0 (p_items m)))) with (concat (map (fun i => map (offs i) (seq 1 (pred (K i)))) (seq 0 (p_items m)))).
    rewrite <- offs_offsets by lia.
    assert (Er : nth i (map (fun i => map (offs i) (seq 1 (pred (K i)))) (seq 0 (p_items m))) [] = map (offs i) (seq 1 (pred (K i)))) by (apply (nth_map_seq (fun i => map (offs i) (seq 1 (pred (K i))))); exact Hi).
    rewrite nth_concat_at; rewrite Er; [|rewrite map_length, seq_length; lia].
    rewrite (nth_error_nth (map (offs i) (seq 1 (pred (K i)))) (k - 1) 0 (x := offs i k)); [reflexivity|]. rewrite nth_error_map_seq by lia. do 2 f_equal. lia.
  Qed.
  Lemma gpc_as_nrm_wf : nrm_wf N.
  Proof using Hwf.
    pose proof Hwf as (Hlv & HC & HL & HF & Hw & Hb). split; [exact Hlv|]. split; [exact HC|]. split; [exact HL|]. split; [exact HF|]. split.
    - rewrite ctrue_nrm_free; [|exact Hlv|exact HC|exact HL|exact HF]. cbn [gpc_as_nrm nrm_w nrm_cats nrm_rel]. change (concat (map _ (seq 0 (p_items m)))) with (concat (map rows (seq 0 (p_items m)))).
      rewrite length_concat_sum. pose proof (rows_offsets (p_items m) (le_n _)) as E. rewrite !firstn_all2 in E; [exact E|rewrite combine_length; unfold p_items; lia|rewrite map_length, seq_length; lia].
    - cbn [gpc_as_nrm nrm_b nrm_cats]. change (concat (map _ (seq 0 (p_items m)))) with (concat (map (fun i => map (offs i) (seq 1 (pred (K i)))) (seq 0 (p_items m)))).
      rewrite length_concat_sum. pose proof (offs_offsets (p_items m) (le_n _)) as E. rewrite !firstn_all2 in E; [exact E|rewrite map_length; unfold p_items; lia|rewrite map_length, seq_length; lia].
  Qed.
  Lemma gpc_in_nrm : (0 < p_items m)%nat -> forall thetas, Forall (fun t => length t = p_lv m) thetas -> nrm_probabilities N thetas = gpc_probabilities m thetas.
  Proof using Hwf.
    intro Hn. apply (model_table_eq (p_lv m) (p_items m) (p_max m) _ _ _ _ (nrm_table N gpc_as_nrm_wf Hn) (gpc_table m Hwf Hn)).
    intros t i k Lt Hi Hk. unfold soft. cbn [gpc_as_nrm nrm_cats]. destruct (Nat.ltb_spec k (K i)) as [HkK|]; [|reflexivity].
    destruct (cats_bounds (p_cats m) i (proj1 (proj2 Hwf)) Hi) as [HK1 _]. assert (HKR : 0 < INR (K i)) by (apply lt_0_INR; lia).
    set (x := predictor (p_lv m) (slope (p_free m) (p_w m) i) t). set (b := intercept (p_cats m) (p_b m) i). set (mean := sumn (K i) b / INR (K i)).
    assert (HS : forall q d, (q < K i)%nat -> (d < p_lv m)%nat -> nrm_slope N i q d = centred (K i) q * slope (p_free m) (p_w m) i d).
    { intros q d Hq Hd. unfold nrm_slope. destruct (Nat.eqb_spec q 0) as [->|H0]; [|apply gpc_nrm_slope; [exact Hi|lia|exact Hd]]. cbn [gpc_as_nrm nrm_cats].
      rewrite (sumn_ext _ _ (fun j => centred (K i) (S j) * slope (p_free m) (p_w m) i d)); [|intros j Hj; apply gpc_nrm_slope; [exact Hi|lia|exact Hd]].
      rewrite sumn_scal_r. destruct (sumn_centred (K i)) as [->|]; [|lia]. unfold centred. cbn [INR]. ring. }
    assert (HB : forall q, (q < K i)%nat -> nrm_intercept N i q = b q - mean).
    { intros q Hq. unfold nrm_intercept. cbn [nrm_cats gpc_as_nrm]. destruct (Nat.eqb_spec q 0) as [->|H0]; [|apply (gpc_nrm_intercept i q); [exact Hi|lia]].
      rewrite (sumn_ext _ _ (fun j => b (S j) - mean)); [|intros j Hj; apply (gpc_nrm_intercept i (S j)); [exact Hi|lia]].
      assert (E : sumn (K i) b = b O + sumn (K i - 1) (fun j => b (S j))) by (now apply sumn_from_first).
      assert (E2 : sumn (K i - 1) (fun j => b (S j) - mean) = sumn (K i - 1) (fun j => b (S j)) - INR (K i - 1) * mean).
      { apply (sumn_minus_const (K i - 1) (fun j => b (S j)) mean). }
      rewrite E2. rewrite minus_INR by lia. cbn [INR]. assert (E3 : INR (K i) * mean = sumn (K i) b) by (unfold mean; field; lra). rewrite E in E3. nra. }
    apply (cp_shift (K i) _ _ ((INR (K i) - 1) / 2 * x + mean)); [|exact HkK]. intros q Hq. unfold nrm_z, gpc_z. change (nrm_lv N) with (p_lv m). rewrite HB by exact Hq. fold x b.
    rewrite (predictor_ext (p_lv m) _ (fun d => centred (K i) q * slope (p_free m) (p_w m) i d)) by (intros d Hd; now apply HS). rewrite predictor_scaled. fold x. unfold centred. ring.
  Qed.
End gpc_nominal.
