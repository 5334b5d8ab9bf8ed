(** EAP scores and the MML loss by an inexact exponential. *)
From Coq Require Import Lia Lra.
From Verif Require Import Base BaseFacts RBase RFacts M_Data M_CV P_CV M_Logit M_Lik S_Lik P_Lik1 P_Lik2 P_Lik3 P_Lik5
  M_Est S_Est P_Est1 P_Est2 P_Est3 M_Under P_Single2 P_Single3.
Local Open Scope R_scope.
Import M_Est List.

Lemma fsum_none l : In None l -> fsum l = None.
Proof.
  induction l as [|a l IH]; intros H; [destruct H|]. cbn [fsum fold_right]. fold (fsum l).
  destruct H as [-> |H]; [|rewrite (IH H)]; [destruct (fsum l) as [[]|]|destruct a as [[]|]]; reflexivity.
Qed.

(** ** EAP *)
Definition log_joint (p : list R -> nat -> nat -> R) (logpdf : list R -> R) (row : list cell) (t : list R) : R :=
  logpdf t + ln (likelihood p t row).
Lemma eap_by dx m p grid logpdf data : has_probabilities m p -> rowwise m -> (0 < em_items m)%nat ->
  (0 < length grid)%nat -> Forall (fun t => length t = em_lv m) grid -> data <> [] -> legal_data (em_cats m) data ->
  (forall row t, In row data -> In t grid -> 0 < likelihood p t row) ->
  eap_scores_by dx m grid (map (fun t => Some (Fin (logpdf t))) grid) (Wide (em_items m) data) =
    Ok (map (fun row => map (fun d =>
      let s := rsum (map (fun t => dx (log_joint p logpdf row t)) grid) in
      fsum (map (fun t => fmul (Some (Fin (nth d t 0))) (fdiv (Some (Fin (dx (log_joint p logpdf row t)))) (Some (Fin s)))) grid))
      (seq 0 (em_lv m))) data).
Proof.
  intros Hm Hr HI HG HF Hne Hd Hpos. set (I := em_items m) in *. set (N := length data). set (G := length grid) in *.
  assert (HN : (0 < N)%nat) by (unfold N; destruct data; [congruence|cbn; lia]).
  destruct (respondent_ll m p Hm HI (tile N grid) (repeat_interleave G data)) as (out & cells & E1 & E2 & E3 & E4).
  { now apply tile_Forall. }
  { rewrite repeat_interleave_length, tile_length. reflexivity. }
  { now apply repeat_interleave_Forall. }
  fold I in E2, E3, E4.
  destruct (rowwise_copies m grid N Hr HN HF) as (o & Eo & o' & Ec & Eo').
  assert (o' = out) by congruence. subst o'.
  unfold eap_scores_by. cbn [w_rows w_cols]. fold N G I. rewrite Eo. cbn [bind]. rewrite Ec. cbn [bind]. rewrite E2. cbn [bind cells_of].
  rewrite repeat_interleave_length in E3. rewrite (reshape_rect I cells (length data * G)) by auto. cbn [bind].
  pose proof (tile_interleave_zip (fun t r => flog (Some (likelihood p t r))) grid data) as Et. fold N G in Et. rewrite E4, Et.
  unfold add_vec. rewrite tile_length, map_length. fold N G.
  rewrite (concat_map_length _ G) by (intros; now rewrite map_length). fold N. rewrite Nat.eqb_refl. cbn [bind].
  rewrite <- map_tile. set (a := log_joint p logpdf).
  assert (El : zip_with fadd (map (fun t => Some (Fin (logpdf t))) (tile N grid))
                 (concat (map (fun r => map (fun t => flog (Some (likelihood p t r))) grid) data)) =
               concat (map (fun r => map (fun t => Some (Fin (a r t))) grid) data)).
  { assert (Ez : forall (l1 : list (list R)) (l2 : list fl), zip_with fadd (map (fun t => Some (Fin (logpdf t))) l1) l2 =
                   zip_with (fun t y => fadd (Some (Fin (logpdf t))) y) l1 l2).
    { induction l1 as [|t l1 IH]; intros [|y l2]; cbn [map zip_with]; auto. now rewrite IH. }
    rewrite Ez. unfold N. rewrite tile_zip. f_equal. apply map_ext_in. intros row Hrow. apply map_ext_in. intros t Ht.
    rewrite flog_pos by auto. reflexivity. }
  rewrite El.
  rewrite reshape_flat; auto.
  2:{ apply Forall_forall. intros l Hl. apply in_map_iff in Hl as [r [<- _]]. apply map_length. }
  cbn [bind]. rewrite !map_map.
  set (s := fun row => rsum (map (fun t => dx (a row t)) grid)).
  rewrite (map_ext _ (fun row => map (fun t => fdiv (Some (Fin (dx (a row t)))) (Some (Fin (s row)))) grid)).
  2:{ intros row. rewrite !map_map. cbn [fexp_by].
      rewrite (fsum_map_fin _ (fun t => dx (a row t))) by (intros; reflexivity). reflexivity. }
  unfold N. rewrite tile_zip. rewrite reshape_flat; auto.
  2:{ apply Forall_forall. intros l Hl. apply in_map_iff in Hl as [r [<- _]]. apply map_length. }
  cbn [bind]. f_equal. rewrite map_map. apply map_ext_in. intros row Hrow. apply map_ext_in. intros d Hdd. apply in_seq in Hdd.
  unfold column. rewrite map_map. cbv zeta. f_equal. apply map_ext_in. intros t Ht.
  assert (Hlt : length t = em_lv m) by (rewrite Forall_forall in HF; auto).
  rewrite (nth_indep _ None (fmul (Some (Fin 0)) (fdiv (Some (Fin (dx (a row t)))) (Some (Fin (s row)))))) by (rewrite map_length; lia).
  rewrite (map_nth (fun x => fmul (Some (Fin x)) (fdiv (Some (Fin (dx (a row t)))) (Some (Fin (s row)))))). reflexivity.
Qed.
(** All posterior values 0: the score is NaN. *)
Lemma eap_nan dx (grid : list (list R)) (x : list R -> R) d : (0 < length grid)%nat -> (forall t, In t grid -> dx (x t) = 0) ->
  let s := rsum (map (fun t => dx (x t)) grid) in
  fsum (map (fun t => fmul (Some (Fin (nth d t 0))) (fdiv (Some (Fin (dx (x t)))) (Some (Fin s)))) grid) = None.
Proof.
  intros HG Z s. assert (S0 : s = 0).
  { unfold s. clear - Z. induction grid as [|t grid IH]; [reflexivity|]. cbn [map rsum]. rewrite Z by now left.
    rewrite IH; [lra|]. intros; apply Z; now right. }
  apply fsum_none. destruct grid as [|t grid]; [cbn in HG; lia|]. left. rewrite S0, (Z t (or_introl eq_refl)).
  unfold fdiv. destruct (Req_EM_T 0 0); [reflexivity|congruence].
Qed.
Lemma eap_number dx (grid : list (list R)) (x : list R -> R) d :
  let s := rsum (map (fun t => dx (x t)) grid) in s <> 0 ->
  fsum (map (fun t => fmul (Some (Fin (nth d t 0))) (fdiv (Some (Fin (dx (x t)))) (Some (Fin s)))) grid) =
  Some (Fin (rsum (map (fun t => nth d t 0 * dx (x t)) grid) / s)).
Proof.
  intros s Hs. rewrite (fsum_map_fin _ (fun t => nth d t 0 * dx (x t) / s)).
  - do 2 f_equal. rewrite <- (map_map (fun t => nth d t 0 * dx (x t)) (fun y => y / s)). apply rsum_map_div.
  - intros t _. unfold fdiv. destruct (Req_EM_T s 0); [contradiction|]. cbn [fmul]. do 2 f_equal. field. exact Hs.
Qed.

(** Weighted means under nearby weights. *)
Lemma rsum_map_minus {X} (f g : X -> R) l : rsum (map (fun a => f a - g a) l) = rsum (map f l) - rsum (map g l).
Proof. induction l as [|a l IH]; cbn [map rsum]; [lra|rewrite IH; lra]. Qed.
Lemma rsum_map_scal {X} c (f : X -> R) l : rsum (map (fun a => c * f a) l) = c * rsum (map f l).
Proof. induction l as [|a l IH]; cbn [map rsum]; [lra|rewrite IH; lra]. Qed.
Lemma rsum_abs {X} (f : X -> R) l B : (forall a, In a l -> Rabs (f a) <= B a) -> Rabs (rsum (map f l)) <= rsum (map B l).
Proof.
  induction l as [|a l IH]; intros H; cbn [map rsum]; [rewrite Rabs_R0; lra|].
  apply Rle_trans with (1 := Rabs_triang _ _). apply Rplus_le_compat; [apply H; now left|apply IH; intros; apply H; now right].
Qed.
Lemma means_close {X} (v w w' : X -> R) l lo hi eta : (forall a, In a l -> lo <= v a <= hi) -> (forall a, In a l -> 0 <= w a) ->
  0 < rsum (map w l) -> rsum (map (fun a => Rabs (w' a - w a)) l) <= eta * rsum (map w l) -> 0 <= eta <= 1 / 2 ->
  0 < rsum (map w' l) /\
  Rabs (rsum (map (fun a => v a * w' a) l) / rsum (map w' l) - rsum (map (fun a => v a * w a) l) / rsum (map w l)) <= (hi - lo) * (2 * eta).
Proof.
  intros Hv Hw Hs He Heta. set (s := rsum (map w l)) in *. set (s' := rsum (map w' l)).
  set (mean := rsum (map (fun a => v a * w a) l) / s).
  assert (D : Rabs (s' - s) <= eta * s).
  { apply Rle_trans with (2 := He). unfold s', s. rewrite <- rsum_map_minus.
    apply (rsum_abs (fun a => w' a - w a)). intros; lra. }
  apply abs_between in D. assert (S2 : s / 2 <= s').
  { assert (eta * s <= 1 / 2 * s) by (apply Rmult_le_compat_r; lra). lra. }
  split; [lra|].
  assert (Hm : lo <= mean <= hi) by (apply weighted_average_bounds; assumption).
  assert (E : rsum (map (fun a => v a * w' a) l) / s' - mean = rsum (map (fun a => (v a - mean) * (w' a - w a)) l) / s').
  { rewrite (map_ext (fun a => (v a - mean) * (w' a - w a)) (fun a => (v a * w' a - mean * w' a) - (v a * w a - mean * w a)))
      by (intros; ring).
    rewrite (rsum_map_minus (fun a => v a * w' a - mean * w' a)), (rsum_map_minus (fun a => v a * w' a)),
      (rsum_map_minus (fun a => v a * w a)), !rsum_map_scal. fold s s'.
    assert (Em : rsum (map (fun a => v a * w a) l) = mean * s) by (unfold mean; field; lra). rewrite Em. field. lra. }
  rewrite E. unfold Rdiv. rewrite Rabs_mult, Rabs_inv, (Rabs_pos_eq s') by lra.
  apply Rmult_le_reg_r with s'; [lra|]. rewrite Rmult_assoc, Rinv_l, Rmult_1_r by lra.
  apply Rle_trans with (rsum (map (fun a => (hi - lo) * Rabs (w' a - w a)) l)).
  - apply (rsum_abs (fun a => (v a - mean) * (w' a - w a))). intros a Ha. rewrite Rabs_mult.
    apply Rmult_le_compat_r; [apply Rabs_pos|]. specialize (Hv a Ha). apply Rabs_le. lra.
  - rewrite rsum_map_scal. apply Rle_trans with ((hi - lo) * (eta * s)); [apply Rmult_le_compat_l; lra|].
    rewrite Rmult_assoc. apply Rmult_le_compat_l; [lra|]. 
    apply Rle_trans with (2 * eta * (s / 2)); [lra|]. apply Rmult_le_compat_l; lra.
Qed.
