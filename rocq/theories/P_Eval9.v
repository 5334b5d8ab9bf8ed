(** Residuals of groups of respondents. *)
From Verif Require Import Base BaseFacts RBase RFacts M_Data M_Mono M_Lik M_Est M_Stat M_Grid M_Eval S_Lik S_Est S_Eval P_CV P_Grid1 P_Grid4 P_Eval1 P_Eval2 P_Eval3 P_Eval6 P_Eval8.
Local Open Scope R_scope.

Lemma at3_map {A B} (f : A -> nat -> nat -> B) I M gs g G i k : nth_error gs g = Some G -> (i < I)%nat -> (k < M)%nat ->
  at3 (map (fun G => map (fun i => map (fun k => f G i k) (seq 0 M)) (seq 0 I)) gs) g i k = Some (f G i k).
Proof.
  intros HG Hi Hk. unfold at3, at2. rewrite nth_error_map, HG. cbn [option_map]. rewrite nth_error_map, nth_error_seq by exact Hi. cbn [option_map Nat.add].
  rewrite nth_error_map, nth_error_seq by exact Hk. reflexivity.
Qed.
Lemma std_residual_value n d p : (0 < n)%nat -> 0 < p < 1 ->
  std_residual n (Some d) (Some p) = Some (Fin ((d - p) / sqrt (p * (1 - p) / INR n))).
Proof.
  intros Hn Hp. assert (Hi : 0 < INR n) by (now apply lt_0_INR). assert (V : 0 < p * (1 - p) / INR n).
  { apply Rdiv_lt_0_compat; [|exact Hi]. apply Rmult_lt_0_compat; lra. }
  unfold std_residual. cbn [olift2 option_map nan_fl fdiv]. destruct (Req_EM_T (INR n) 0); [lra|]. cbn [fsqrt].
  destruct (Rlt_dec (p * (1 - p) / INR n) 0); [lra|]. cbn [fdiv]. pose proof (sqrt_lt_R0 _ V). destruct (Req_EM_T _ 0); [lra|reflexivity].
Qed.
Lemma std_residual_sure n d p : (0 < n)%nat -> p = 0 \/ p = 1 -> std_residual n (Some d) (Some p) = if Req_EM_T (d - p) 0 then None else finf (fpos (Fin (d - p))).
Proof.
  intros Hn Hp. assert (Hi : 0 < INR n) by (now apply lt_0_INR). assert (V : p * (1 - p) / INR n = 0).
  { replace (p * (1 - p)) with 0 by (destruct Hp; subst; ring). unfold Rdiv. ring. }
  unfold std_residual. cbn [olift2 option_map nan_fl fdiv]. destruct (Req_EM_T (INR n) 0); [lra|]. rewrite V. cbn [fsqrt].
  destruct (Rlt_dec 0 0); [lra|]. rewrite sqrt_0. cbn [fdiv]. destruct (Req_EM_T 0 0); [reflexivity|lra].
Qed.
Lemma std_residual_nan n p : std_residual n None p = None.
Proof. reflexivity. Qed.
Section Residuals.
  Variables (iprob : list R -> list (list R)) (lv : nat) (cats : list nat) (scale : option (list (list R) -> list (list R)))
    (thetas : list (list R)) (rows : list (list cell)) (groups j : nat).
  Let scores := match scale with Some f => f thetas | None => thetas end.
  Let N := length rows.
  Let I := length cats.
  Let M := list_max cats.
  Hypothesis (HT : length thetas = N) (HS : length scores = N) (HN : (0 < N)%nat) (Hg : (0 < groups)%nat) (Hj : (j < lv)%nat)
    (HR : rect N I rows) (HB : answers_below M rows).
  Let score := fun n => nth j (nth n scores []) 0.
  Let gs := chunk groups (argsort_r (column 0 j scores)).
  Definition raw_entry (G : list nat) (i k : nat) : fl :=
    if (nth i cats O <=? k)%nat then None else option_map (fun d => Fin (d - model_share iprob thetas G i k)) (observed_share rows G i k).
  Lemma raw_ok train data : match data with Some d => d | None => train end = rows ->
    group_fit_residuals iprob lv cats scale thetas train data groups (S j) false =
    Ok (map (fun G => map (fun i => map (fun k => raw_entry G i k) (seq 0 M)) (seq 0 I)) gs, map (group_mid scale score) gs).
  Proof.
    intros E. unfold group_fit_residuals. rewrite E. rewrite (groups_ok iprob lv cats scale thetas rows groups j) by assumption. cbn [bind].
    fold scores. fold gs. fold score. f_equal. f_equal. unfold zip3. rewrite zip_with_maps. unfold blank_categories. rewrite !map_map. apply map_ext. intros G.
    unfold group_answers, group_model. rewrite zip_with_maps. apply nth_error_ext. intros i. rewrite nth_error_map, nth_error_mapi, !nth_error_map.
    fold I. destruct (Nat.lt_ge_cases i I) as [Hi|Hi].
    2:{ rewrite (proj2 (nth_error_None (seq 0 I) i)) by (rewrite seq_length; lia). reflexivity. }
    rewrite nth_error_seq by exact Hi. cbn [option_map Nat.add]. f_equal. rewrite (nth_error_nth_lt cats i O) by exact Hi.
    rewrite zip_with_maps. apply nth_error_ext. intros k. rewrite nth_error_map, nth_error_mapi, !nth_error_map. fold M.
    destruct (Nat.lt_ge_cases k M) as [Hk|Hk].
    2:{ rewrite (proj2 (nth_error_None (seq 0 M) k)) by (rewrite seq_length; lia). reflexivity. }
    rewrite nth_error_seq by exact Hk. cbn [option_map Nat.add]. f_equal. unfold raw_entry. destruct (nth i cats O <=? k)%nat; [reflexivity|].
    unfold nan_fl. destruct (observed_share rows G i k); reflexivity.
  Qed.
  Lemma std_ok train : group_fit_residuals iprob lv cats scale thetas train (Some rows) groups (S j) true =
    Ok (map (fun G => map (fun i => map (fun k => std_residual (length G) (observed_share rows G i k) (Some (model_share iprob thetas G i k))) (seq 0 M)) (seq 0 I)) gs,
        map (group_mid scale score) gs).
  Proof.
    unfold group_fit_residuals. rewrite (groups_ok iprob lv cats scale thetas rows groups j) by assumption. cbn [bind].
    fold scores. fold gs. fold score. assert (CH : chunked groups rows = Ok (chunk groups rows)) by (unfold chunked; destruct groups; [lia|reflexivity]).
    rewrite CH. cbn [bind]. assert (L : map (@length (list cell)) (chunk groups rows) = map (@length nat) gs).
    { unfold gs. apply chunk_lengths. unfold argsort_r. rewrite map_length, sort_indexed_length. unfold column. rewrite map_length. symmetry. exact HS. }
    assert (L2 : length (chunk groups rows) = length gs) by (rewrite <- (map_length (@length (list cell))), L; apply map_length).
    rewrite map_length, L2, Nat.eqb_refl. f_equal. f_equal. rewrite L, combine_maps, zip_with_maps. apply map_ext. intros G. cbn [fst snd].
    unfold group_answers, group_model. rewrite zip_with_maps. apply map_ext. intros i. now rewrite zip_with_maps.
  Qed.
End Residuals.
Lemma default_call_error iprob lv cats scale thetas train groups latent_variable out :
  group_fit_residuals iprob lv cats scale thetas train None groups latent_variable true <> Ok out.
Proof. unfold group_fit_residuals. destruct (latent_group_probabilities _ _ _ _ _ _ _ _) as [[[dp mp] mid]|]; discriminate. Qed.
(** ** Sums over the categories *)
Lemma sumn_rsum_swap {A} K (f : nat -> A -> R) l : sumn K (fun k => rsum (map (f k) l)) = rsum (map (fun a => sumn K (fun k => f k a)) l).
Proof.
  induction l as [|a l IH]; [cbn [map rsum]; apply (P_Stat1.sumn_zero K (fun _ => 0)); reflexivity|]. cbn [map rsum]. rewrite <- IH, <- sumn_plus. reflexivity.
Qed.
Lemma model_share_sum iprob thetas G i K : G <> [] -> (forall n, In n G -> sumn K (fun k => nth k (nth i (iprob (nth n thetas [])) []) 0) = 1) ->
  sumn K (fun k => model_share iprob thetas G i k) = 1.
Proof.
  intros HG H. unfold model_share. rewrite (sumn_ext K _ (fun k => / INR (length G) * rsum (map (fun n => nth k (nth i (iprob (nth n thetas [])) []) 0) G))).
  2:{ intros. unfold Rdiv. ring. }
  rewrite sumn_scal, sumn_rsum_swap. rewrite (map_ext_in _ (fun _ => 1)) by exact H.
  assert (E : rsum (map (fun _ : nat => 1) G) = INR (length G)). { clear. induction G as [|a G IH]; [reflexivity|]. cbn [map rsum]. rewrite IH. cbn [length]. rewrite S_INR. ring. }
  rewrite E. field. apply not_0_INR. destruct G; [congruence|discriminate].
Qed.
Lemma model_share_nonneg iprob thetas G i k : (forall n, In n G -> 0 <= nth k (nth i (iprob (nth n thetas [])) []) 0) -> 0 <= model_share iprob thetas G i k.
Proof.
  intros H. unfold model_share. destruct G as [|a G]; [cbn; unfold Rdiv; lra|]. apply Rmult_le_pos.
  - induction (a :: G) as [|b l IH]; [cbn; lra|]. cbn [map rsum]. apply Rplus_le_le_0_compat; [apply H; now left|]. apply IH. intros; apply H; now right.
  - apply Rlt_le, Rinv_0_lt_compat, lt_0_INR. cbn. lia.
Qed.
Lemma observed_share_sum rows G i K : (0 < tally (fun n => seen rows n i) G)%nat ->
  (forall n, In n G -> seen rows n i = true -> exists k, (k < K)%nat /\ chose rows n i k = true) ->
  exists d, (forall k, observed_share rows G i k = Some (d k)) /\ sumn K d = 1 /\ forall k, 0 <= d k <= 1.
Proof.
  intros HT H. set (t := tally _ G) in *. exists (fun k => INR (tally (fun n => chose rows n i k) G) / INR t).
  assert (P : 0 < INR t) by (now apply lt_0_INR). split; [|split].
  - intros k. unfold observed_share, share. fold t. destruct (Nat.eqb_spec t 0); [lia|reflexivity].
  - rewrite (sumn_ext K _ (fun k => / INR t * INR (tally (fun n => chose rows n i k) G))) by (intros; unfold Rdiv; ring). rewrite sumn_scal.
    rewrite <- (tally_sum (fun k n => chose rows n i k) (fun n => seen rows n i)).
    + fold t. field. lra.
    + exact H.
    + intros n k _. apply chose_seen.
    + intros n a b. apply chose_unique.
  - intros k. split; [apply Rmult_le_pos; [apply pos_INR|apply Rlt_le, Rinv_0_lt_compat, P]|]. apply (Rmult_le_reg_r (INR t)); [exact P|].
    unfold Rdiv. rewrite Rmult_assoc, Rinv_l, Rmult_1_l, Rmult_1_r by lra. apply le_INR. apply tally_le. intros n _. apply chose_seen.
Qed.
Lemma sumn_term K f k : (forall j, (j < K)%nat -> 0 <= f j) -> (k < K)%nat -> f k <= sumn K f.
Proof.
  intros H Hk. pose proof (sumn_single K k (fun j => if (j =? k)%nat then f k else 0) Hk) as E.
  cbv beta in E. rewrite Nat.eqb_refl in E. rewrite <- E.
  2:{ intros q _ Nq. destruct (Nat.eqb_spec q k); [contradiction|reflexivity]. }
  apply sumn_le. intros q Hq. destruct (Nat.eqb_spec q k) as [->|]; [lra|now apply H].
Qed.
Lemma raw_balance iprob thetas rows G i K : G <> [] -> (0 < tally (fun n => seen rows n i) G)%nat ->
  (forall n, In n G -> seen rows n i = true -> exists k, (k < K)%nat /\ chose rows n i k = true) ->
  (forall n, In n G -> (forall k, (k < K)%nat -> 0 <= nth k (nth i (iprob (nth n thetas [])) []) 0) /\ sumn K (fun k => nth k (nth i (iprob (nth n thetas [])) []) 0) = 1) ->
  exists r, (forall k, option_map (fun d => Fin (d - model_share iprob thetas G i k)) (observed_share rows G i k) = Some (Fin (r k))) /\
    sumn K r = 0 /\ forall k, (k < K)%nat -> -1 <= r k <= 1.
Proof.
  intros HG HT HK HP. destruct (observed_share_sum rows G i K HT HK) as (d & D1 & D2 & D3).
  pose proof (model_share_sum iprob thetas G i K HG (fun n Hn => proj2 (HP n Hn))) as S1.
  assert (S0 : forall k, (k < K)%nat -> 0 <= model_share iprob thetas G i k) by (intros k Hk; apply model_share_nonneg; intros n Hn; now apply HP).
  exists (fun k => d k - model_share iprob thetas G i k). split; [intros k; now rewrite D1|]. split.
  - rewrite (sumn_ext K _ (fun k => d k + (-1) * model_share iprob thetas G i k)) by (intros; ring). rewrite sumn_plus, sumn_scal, D2. change (sumn K (fun k => model_share iprob thetas G i k)) with (sumn K (model_share iprob thetas G i)) in S1. rewrite S1. ring.
  - intros k Hk. pose proof (D3 k). pose proof (S0 k Hk). pose proof (sumn_term K (model_share iprob thetas G i) k S0 Hk) as T.
    change (sumn K (model_share iprob thetas G i)) with (sumn K (fun k => model_share iprob thetas G i k)) in T. lra.
Qed.
