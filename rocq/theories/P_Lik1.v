(** Lemmas about the log-likelihood functions. *)
From Verif Require Import Base BaseFacts RBase RFacts M_Data M_Logit S_Logit P_Logit M_Lik S_Lik.
Local Open Scope R_scope.

Lemma concat_at2 {A} (l : list (list A)) N I n i : rect N I l -> (n < N)%nat -> (i < I)%nat ->
  nth_error (concat l) (n * I + i) = at2 l n i.
Proof.
  intros [HN HF] Hn Hi. unfold at2. destruct (nth_error l n) as [r|] eqn:E.
  - now apply nth_error_concat_const.
  - apply nth_error_None in E. lia.
Qed.
Lemma rect_length {A} (l : list (list A)) N I : rect N I l -> length (concat l) = (N * I)%nat.
Proof. intros [HN HF]. now rewrite (length_concat_const l I HF), HN. Qed.
Lemma rect_at2 {A} (l : list (list A)) N I n i : rect N I l -> (n < N)%nat -> (i < I)%nat -> exists a, at2 l n i = Some a.
Proof.
  intros H Hn Hi. rewrite <- (concat_at2 l N I n i) by auto.
  destruct (nth_error (concat l) (n * I + i)) eqn:E; eauto.
  apply nth_error_None in E. rewrite (rect_length l N I H) in E. nia.
Qed.
Lemma at2_nth {A} (l : list (list A)) n i d a : at2 l n i = Some a -> nth i (nth n l []) d = a.
Proof.
  unfold at2. destruct (nth_error l n) as [r|] eqn:E; [|discriminate]. intro H.
  apply nth_error_nth with (d := []) in E. rewrite E. now apply nth_error_nth.
Qed.

Definition flat_mask (mask : option (list (list bool))) (n : nat) : list bool :=
  match mask with None => repeat false n | Some m => concat m end.
Lemma flat_mask_length mask N I : rect_opt N I mask -> length (flat_mask mask (N * I)) = (N * I)%nat.
Proof. destruct mask as [m|]; cbn; intro H; [now apply rect_length|apply repeat_length]. Qed.
Lemma flat_mask_nth mask N I n i : rect_opt N I mask -> (n < N)%nat -> (i < I)%nat ->
  nth_error (flat_mask mask (N * I)) (n * I + i) = Some (masked mask n i).
Proof.
  intros H Hn Hi. destruct mask as [m|]; cbn in *.
  - rewrite (concat_at2 m N I) by auto. destruct (rect_at2 m N I n i H Hn Hi) as [b Hb].
    now rewrite Hb, (at2_nth m n i false b Hb).
  - apply nth_error_repeat_lt. nia.
Qed.

Lemma mask_select_all_true {A} (l : list A) : mask_select (repeat true (length l)) l = l.
Proof. induction l as [|a l IH]; cbn; congruence. Qed.
Lemma mask_select_none {A} n (l : list A) : length l = n -> mask_select (map negb (repeat false n)) l = l.
Proof. intros <-. rewrite map_repeat. cbn [negb]. apply mask_select_all_true. Qed.
Lemma drop_opt_flat {A} mask N I (l : list A) : rect_opt N I mask -> length l = (N * I)%nat ->
  drop_opt mask l = Ok (mask_select (map negb (flat_mask mask (N * I))) l).
Proof.
  intros H Hl. destruct mask as [m|]; cbn [drop_opt flat_mask].
  - unfold drop_masked. rewrite (rect_length m N I H), Hl, Nat.eqb_refl. reflexivity.
  - now rewrite mask_select_none.
Qed.
Lemma mask_scatter_all {A} (l base : list A) : length l = length base ->
  mask_scatter (repeat true (length base)) l base = l.
Proof. revert base; induction l as [|a l IH]; intros [|b base] H; cbn in *; try lia; auto. f_equal. apply IH. lia. Qed.
Lemma scatter_opt_flat mask n (l : list fl) : (mask = None -> length l = n) ->
  scatter_opt mask n l = mask_scatter (map negb (flat_mask mask n)) l (repeat None n).
Proof.
  intro H. destruct mask as [m|]; cbn [scatter_opt flat_mask]; [reflexivity|].
  rewrite map_repeat. cbn [negb]. specialize (H eq_refl).
  pose proof (mask_scatter_all l (repeat (@None ext) n)) as E. rewrite repeat_length in E. now rewrite E.
Qed.

(** Filtering rows and targets by the mask, then scoring, gives the scores of the unmasked cells. *)
Lemma filtered_scores {X} (score : X -> Z -> result fl) (g : nat -> fl) mask : forall s rows ts,
  length rows = length mask -> length ts = length mask ->
  (forall p, nth_error mask p = Some false ->
     exists r t, nth_error rows p = Some r /\ nth_error ts p = Some t /\ score r t = Ok (g (s + p)%nat)) ->
  mapM (fun rt => score (fst rt) (snd rt))
    (combine (mask_select (map negb mask) rows) (mask_select (map negb mask) ts))
  = Ok (mask_select (map negb mask) (map g (seq s (length mask)))).
Proof.
  induction mask as [|b mask IH]; intros s [|r rows] [|t ts] Hr Ht H; cbn [length] in *; try lia; [reflexivity|].
  cbn [map mask_select seq].
  assert (Hrec : forall p, nth_error mask p = Some false ->
     exists r t, nth_error rows p = Some r /\ nth_error ts p = Some t /\ score r t = Ok (g (S s + p)%nat)).
  { intros p Hp. destruct (H (S p) Hp) as (r' & t' & A & B & C). exists r', t'. repeat split; auto.
    rewrite C. do 2 f_equal. lia. }
  destruct b; cbn [negb].
  - apply IH; auto.
  - destruct (H O eq_refl) as (r' & t' & A & B & C). cbn in A, B. injection A as <-. injection B as <-.
    cbn [combine mapM fst snd]. rewrite C. cbn [bind]. rewrite (IH (S s)) by (auto; lia). cbn [bind].
    now rewrite Nat.add_0_r.
Qed.
Lemma mask_select_lengths {A B} m (l : list A) (l' : list B) : length l = length m -> length l' = length m ->
  length (mask_select m l) = length (mask_select m l').
Proof.
  revert l l'; induction m as [|b m IH]; intros [|x l] [|y l'] H1 H2; cbn in *; try lia; auto.
  destruct b; cbn; rewrite (IH l l') by lia; reflexivity.
Qed.
Lemma scatter_select {A} m (l base : list A) : length l = length m -> length base = length m -> forall p b,
  nth_error m p = Some b ->
  nth_error (mask_scatter m (mask_select m l) base) p = if b then nth_error l p else nth_error base p.
Proof.
  revert l base; induction m as [|b m IH]; intros [|x l] [|y base] H1 H2 p b' Hp; cbn [length] in *; try lia;
    [destruct p; discriminate|].
  cbn [mask_select mask_scatter]. destruct b; cbn [mask_scatter].
  - destruct p as [|p]; cbn in *; [now injection Hp as <-|]. apply IH; auto; lia.
  - destruct p as [|p]; cbn in *; [now injection Hp as <-|]. apply IH; auto; lia.
Qed.

(** ** Sums *)
Lemma fsum_select mask : forall s (g : nat -> fl) (v : nat -> R),
  (forall p, nth_error mask p = Some false -> g (s + p)%nat = Some (Fin (v p))) ->
  fsum (mask_select (map negb mask) (map g (seq s (length mask))))
  = Some (Fin (sumn (length mask) (fun p => if nth p mask false then 0 else v p))).
Proof.
  induction mask as [|b mask IH]; intros s g v H; [reflexivity|].
  cbn [length map seq mask_select]. rewrite sumn_S_first. cbn [nth].
  assert (E : fsum (mask_select (map negb mask) (map g (seq (S s) (length mask))))
    = Some (Fin (sumn (length mask) (fun p => if nth p mask false then 0 else v (S p))))).
  { apply (IH (S s) g (fun p => v (S p))). intros p Hp. rewrite <- (H (S p) Hp). f_equal. lia. }
  destruct b; cbn [negb].
  - rewrite E. do 2 f_equal. ring.
  - cbn [fsum fold_right]. fold (fsum (mask_select (map negb mask) (map g (seq (S s) (length mask))))).
    rewrite E. specialize (H O eq_refl). rewrite Nat.add_0_r in H. rewrite H. reflexivity.
Qed.
Lemma sumn_grid N I f : sumn (N * I) f = sumn N (fun n => sumn I (fun i => f (n * I + i)%nat)).
Proof.
  induction N as [|N IH]; [reflexivity|]. cbn [sumn]. rewrite <- IH.
  replace (S N * I)%nat with (N * I + I)%nat by lia. rewrite sumn_split. reflexivity.
Qed.

Lemma reshape_rect {A} M (l : list A) n : (0 < M)%nat -> length l = (n * M)%nat -> reshape M l = Ok (blocks M l).
Proof.
  intros HM Hl. unfold reshape. rewrite Hl, Nat.mod_mul by lia.
  destruct (Nat.ltb_spec 0 M); [|lia]. reflexivity.
Qed.
Lemma blocks_count {A} M (l : list A) n : (0 < M)%nat -> length l = (n * M)%nat -> length (blocks M l) = n.
Proof.
  intros HM Hl. rewrite blocks_length by auto. unfold ceil_div. rewrite Hl.
  replace (n * M + M - 1)%nat with (n * M + (M - 1))%nat by lia. rewrite Nat.div_add_l by lia.
  rewrite Nat.div_small by lia. lia.
Qed.

Lemma pos_div n I i : (i < I)%nat -> ((n * I + i) / I = n)%nat.
Proof. intro H. rewrite Nat.div_add_l by lia. rewrite Nat.div_small by lia. lia. Qed.
Lemma pos_mod n I i : (i < I)%nat -> ((n * I + i) mod I = i)%nat.
Proof. intro H. rewrite (Nat.add_comm (n * I)), Nat.mod_add by lia. now apply Nat.mod_small. Qed.

(** The common part of all log_likelihood functions. *)
Section Core.
  Context {X : Type} (score : list X -> Z -> result fl).
  Variables (nanl : Z) (N I : nat) (mask : option (list (list bool))) (data : list (list cell)).
  Variables (rows : list (list X)) (g : nat -> nat -> fl).
  Hypothesis Hmask : rect_opt N I mask.
  Hypothesis Hdata : rect N I data.
  Hypothesis Hrows : length rows = (N * I)%nat.
  Hypothesis Hscore : forall n i, (n < N)%nat -> (i < I)%nat -> masked mask n i = false ->
    exists r c, nth_error rows (n * I + i) = Some r /\ at2 data n i = Some c /\ score r (to_long nanl c) = Ok (g n i).
  Let fm := flat_mask mask (N * I).
  Let targets := map (to_long nanl) (concat data).
  Let gf := fun p => g (p / I)%nat (p mod I)%nat.

  Lemma targets_length : length targets = (N * I)%nat.
  Proof. unfold targets. now rewrite map_length, (rect_length data N I). Qed.
  Lemma gf_cell n i : (i < I)%nat -> gf (n * I + i) = g n i.
  Proof.
    intro Hi. unfold gf. now rewrite pos_div, pos_mod.
  Qed.
  Lemma core_scores :
    mapM (fun rt => score (fst rt) (snd rt)) (combine (mask_select (map negb fm) rows) (mask_select (map negb fm) targets))
    = Ok (mask_select (map negb fm) (map gf (seq 0 (N * I)))).
  Proof.
    assert (Hl : length fm = (N * I)%nat) by now apply flat_mask_length.
    rewrite <- Hl. apply filtered_scores; [now rewrite Hrows, Hl|now rewrite targets_length, Hl|].
    intros p Hp. assert (Hlt : (p < N * I)%nat) by (rewrite <- Hl; apply nth_error_Some; congruence).
    destruct (position_split N I p Hlt) as (n & i & Hn & Hi & ->).
    unfold fm in Hp. rewrite flat_mask_nth in Hp by auto.
    destruct (Hscore n i Hn Hi ltac:(congruence)) as (r & c & A & B & C).
    exists r, (to_long nanl c). split; [exact A|]. split.
    - unfold targets. rewrite nth_error_map, (concat_at2 data N I), B by auto. reflexivity.
    - cbn [Nat.add]. rewrite C. f_equal. symmetry. now apply gf_cell.
  Qed.
  Lemma core_cells : exists l, scatter_opt mask (length targets) (mask_select (map negb fm) (map gf (seq 0 (N * I)))) = l /\
    length l = (N * I)%nat /\
    forall n i, (n < N)%nat -> (i < I)%nat -> nth_error l (n * I + i) = Some (if masked mask n i then None else g n i).
  Proof.
    assert (Hl : length fm = (N * I)%nat) by now apply flat_mask_length.
    eexists. split; [reflexivity|]. rewrite targets_length, scatter_opt_flat.
    2:{ intros E. unfold fm. rewrite E. cbn [flat_mask]. rewrite mask_select_none; now rewrite map_length, seq_length. }
    split; [now rewrite mask_scatter_length, repeat_length|].
    intros n i Hn Hi. assert (n * I + i < N * I)%nat by nia.
    rewrite (scatter_select _ _ _) with (b := negb (masked mask n i)).
    - destruct (masked mask n i); cbn [negb]; [now apply nth_error_repeat_lt|].
      rewrite nth_error_map_seq by auto. cbn [Nat.add]. now rewrite gf_cell.
    - now rewrite !map_length, seq_length, flat_mask_length.
    - now rewrite map_length, repeat_length, flat_mask_length.
    - now rewrite nth_error_map, flat_mask_nth by auto.
  Qed.
  Lemma core_sum (v : nat -> nat -> R) :
    (forall n i, (n < N)%nat -> (i < I)%nat -> masked mask n i = false -> g n i = Some (Fin (v n i))) ->
    fsum (mask_select (map negb fm) (map gf (seq 0 (N * I)))) = Some (Fin (observed_sum N I mask v)).
  Proof.
    intro Hv. assert (Hl : length fm = (N * I)%nat) by now apply flat_mask_length.
    rewrite <- Hl at 1. rewrite (fsum_select fm 0 gf (fun p => v (p / I)%nat (p mod I)%nat)).
    - rewrite Hl. do 2 f_equal. unfold observed_sum. rewrite sumn_grid. apply sumn_ext; intros n Hn.
      apply sumn_ext; intros i Hi. pose proof (flat_mask_nth mask N I n i Hmask Hn Hi) as Hf.
      fold fm in Hf. rewrite (nth_error_nth fm (n * I + i) false Hf).
      now rewrite pos_div, pos_mod by auto.
    - intros p Hp. assert (Hlt : (p < N * I)%nat) by (rewrite <- Hl; apply nth_error_Some; congruence).
      destruct (position_split N I p Hlt) as (n & i & Hn & Hi & ->).
      unfold fm in Hp. rewrite flat_mask_nth in Hp by auto. injection Hp as Hp. cbn [Nat.add].
      rewrite gf_cell by auto. rewrite (Hv n i) by auto.
      now rewrite pos_div, pos_mod by auto.
  Qed.
  Lemma core_lengths : (length (mask_select (map negb fm) rows) = length (mask_select (map negb fm) targets))%nat.
  Proof.
    apply mask_select_lengths; rewrite map_length; unfold fm; rewrite (flat_mask_length mask N I) by auto; auto using targets_length.
  Qed.
End Core.
