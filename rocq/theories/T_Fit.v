(** Theorems about the fit statistics of a model that is right (C129). *)
From Coq Require Import Permutation.
From Verif Require Import Base BaseFacts RBase RFacts M_Data M_Logit M_Lik M_Est M_Grid M_Eval P_Eval1 P_Eval3 P_Eval8 P_Eval9 P_True1 P_Fit P_Fit2 S_Lik S_Est S_True S_Eval S_Fit T_Eval.
Import List.
Local Open Scope R_scope.

Lemma filter_nonempty {A} (b : A -> bool) l x : In x l -> b x = true -> filter b l <> [].
Proof. intros H Hb E. assert (In x (filter b l)) as F by now apply filter_In. rewrite E in F. exact F. Qed.
Lemma inr_length {A} (l : list A) : l <> [] -> INR (length l) <> 0.
Proof. intros H. destruct l; [now destruct H|]. apply Rgt_not_eq, lt_0_INR. cbn. lia. Qed.
Lemma rsum_positive {A} (f : A -> R) l : l <> [] -> (forall x, In x l -> 0 < f x) -> 0 < rsum (map f l).
Proof.
  intros N H. destruct l as [|x l]; [now destruct N|]. cbn [map rsum]. assert (0 < f x) by (apply H; now left).
  assert (0 <= rsum (map f l)); [|lra]. assert (F : forall y, In y l -> 0 < f y) by (intros; apply H; now right). clear H N. induction l as [|y l IH]; cbn [map rsum]; [lra|].
  assert (0 < f y) by (apply F; now left). assert (0 <= rsum (map f l)) by (apply IH; intros; apply F; now right). lra.
Qed.
Lemma expected_intro cats pattern probs f x v : (forall data, In data (possible_data cats pattern) -> f data = Some (x data)) -> on_average cats pattern probs x = v -> expected cats pattern probs f v.
Proof. intros H E. exists x. now split. Qed.
Lemma infit_of_some {A} (e s : A -> R) l : l <> [] -> infit_of e s l = Some (Fin (rsum (map e l) / rsum (map s l))).
Proof. intros N. destruct l; [now destruct N|reflexivity]. Qed.
Lemma outfit_of_some {A} (e s : A -> R) l : l <> [] -> outfit_of e s l = Some (Fin (rsum (map (fun x => e x / s x) l) / INR (length l))).
Proof. intros N. destruct l; [now destruct N|reflexivity]. Qed.
Lemma rsum_map_plus {A} (f g : A -> R) l : rsum (map (fun x => f x + g x) l) = rsum (map f l) + rsum (map g l).
Proof. induction l as [|x l IH]; cbn [map rsum]; [ring|]. rewrite IH. ring. Qed.
Lemma rsum_map_scal {A} c (f : A -> R) l : rsum (map (fun x => c * f x) l) = c * rsum (map f l).
Proof. induction l as [|x l IH]; cbn [map rsum]; [ring|]. rewrite IH. ring. Qed.
Lemma NoDup_remove_app {A} (a g b : list A) : NoDup (a ++ g ++ b) -> NoDup g.
Proof.
  induction a as [|x a IH]; cbn [app]; intros H; [|apply IH; now inversion H]. induction g as [|y g IH]; [constructor|]. cbn [app] in H. inversion H as [|? ? H1 H2]; subst. constructor; [|now apply IH].
  intros F. apply H1. apply in_or_app. now left.
Qed.
Lemma rsum_ones {A} (l : list A) : rsum (map (fun _ => 1) l) = INR (length l).
Proof. induction l as [|a l IH]; [reflexivity|]. cbn [map rsum]. cbn [length]. rewrite IH, S_INR. ring. Qed.

Section Right.
  Variables (M : nat) (cats : list nat) (pattern : list (list bool)) (probs : list (list (list R))) (mc : option (list Z)).
  Let I := length cats.
  Let N := length pattern.
  Hypotheses (HM : (0 < M)%nat) (HP : rect N I probs) (HQ : rect N I pattern) (HA : answers_as M cats probs) (HK : usable_key M I mc).

  (** Statistics over a list of cells, all of whose observed members have a spread. *)
  Section Cells.
    Variables (A : Type) (l : list A) (fn fi : A -> nat).
    Hypotheses (HL : forall x, In x l -> (fn x < N)%nat /\ (fi x < I)%nat) (HO : exists x, In x l /\ asked pattern (fn x) (fi x) = true)
      (HV : forall x, In x l -> asked pattern (fn x) (fi x) = true -> 0 < cell_spread mc probs (fn x) (fi x)).
    Let o := filter (fun x => asked pattern (fn x) (fi x)) l.
    Lemma o_nonempty : o <> [].
    Proof. destruct HO as (x & Hx & Hs). exact (filter_nonempty _ l x Hx Hs). Qed.
    Lemma o_in x : In x o -> (fn x < N)%nat /\ (fi x < I)%nat /\ asked pattern (fn x) (fi x) = true /\ 0 < cell_spread mc probs (fn x) (fi x).
    Proof. intros H. apply filter_In in H as [H1 H2]. destruct (HL x H1). repeat split; auto. Qed.
    Lemma infit_one : on_average cats pattern probs (fun d => rsum (map (fun x => cell_error mc d probs (fn x) (fi x)) o) / rsum (map (fun x => cell_spread mc probs (fn x) (fi x)) o)) = 1.
    Proof.
      rewrite (average_ratio M cats pattern probs HP HQ HA o (fun x d => cell_error mc d probs (fn x) (fi x)) (fun x => cell_spread mc probs (fn x) (fi x))).
      - apply Rinv_r. apply Rgt_not_eq. apply rsum_positive; [apply o_nonempty|]. intros x Hx. apply (o_in x Hx).
      - intros x Hx. destruct (o_in x Hx) as (H1 & H2 & H3 & _). now apply (error_average M).
    Qed.
    Lemma outfit_one : on_average cats pattern probs (fun d => rsum (map (fun x => cell_error mc d probs (fn x) (fi x) / cell_spread mc probs (fn x) (fi x)) o) / INR (length o)) = 1.
    Proof.
      rewrite (average_ratio M cats pattern probs HP HQ HA o (fun x d => cell_error mc d probs (fn x) (fi x) / cell_spread mc probs (fn x) (fi x)) (fun _ => 1)).
      - rewrite rsum_ones. apply Rinv_r. apply inr_length, o_nonempty.
      - intros x Hx. destruct (o_in x Hx) as (H1 & H2 & H3 & H4). unfold Rdiv. rewrite average_scal. rewrite (error_average M) by assumption. apply Rinv_r. lra.
    Qed.
  End Cells.
End Right.

(** The answers to the items asked are generated by the probabilities the statistics are computed with. Then infit and
    outfit of every item and every respondent, which are numbers whatever the answers, are 1 on average. *)
Theorem C129_infit_outfit M cats pattern probs mc :
  let N := length pattern in let I := length cats in
  (0 < M)%nat -> rect N I probs -> rect N I pattern -> answers_as M cats probs -> usable_key M I mc ->
  (forall i, (i < I)%nat -> (exists n, (n < N)%nat /\ asked pattern n i = true) ->
     (forall n, (n < N)%nat -> asked pattern n i = true -> 0 < cell_spread mc probs n i) ->
     expected cats pattern probs (fun data => infit_entry (infit_outfit M mc probs (Wide I data) (Some LItem)) i) 1 /\
     expected cats pattern probs (fun data => outfit_entry (infit_outfit M mc probs (Wide I data) (Some LItem)) i) 1) /\
  (forall n, (n < N)%nat -> (exists i, (i < I)%nat /\ asked pattern n i = true) ->
     (forall i, (i < I)%nat -> asked pattern n i = true -> 0 < cell_spread mc probs n i) ->
     expected cats pattern probs (fun data => infit_entry (infit_outfit M mc probs (Wide I data) (Some LRespondent)) n) 1 /\
     expected cats pattern probs (fun data => outfit_entry (infit_outfit M mc probs (Wide I data) (Some LRespondent)) n) 1).
Proof.
  intros N I HM HP HQ HA HK.
  assert (C : forall data, In data (possible_data cats pattern) -> (0 < I)%nat -> _) by
    (intros data Hd HI; exact (C78_infit_outfit N I M mc probs data HM HP (table_rect cats pattern HQ data Hd HI) (fun n i p H => proj1 (HA n i p H))
      ltac:(intros n i Hs; destruct (table_outside cats pattern HQ data n i Hd HI Hs) as [Hn Hi]; rewrite (table_seen cats pattern HQ data n i Hd Hn Hi) in Hs;
            eexists; rewrite (table_chose cats pattern HQ) by eassumption; apply Nat.eqb_refl)
      ltac:(intros key Hk; destruct (HK key Hk) as (A1 & A2 & A3 & A4); split; [exact A1|]; split; [exact A2|]; split; [exact A3|]; split; [exact A4|]; intros n i p Hp; apply (HA n i p Hp)))).
  split.
  - intros i Hi HO HV. set (l := everyone N). set (o := filter (fun n => asked pattern n i) l).
    assert (HL : forall x, In x l -> (x < N)%nat /\ (i < I)%nat) by (intros x Hx; apply in_seq in Hx; split; [lia|exact Hi]).
    assert (HO' : exists x, In x l /\ asked pattern x i = true) by (destruct HO as (n & Hn & Ha); exists n; split; [apply in_seq; lia|exact Ha]).
    assert (HV' : forall x, In x l -> asked pattern x i = true -> 0 < cell_spread mc probs x i) by (intros x Hx; apply HV; now apply HL).
    pose proof (o_nonempty pattern _ l (fun n => n) (fun _ => i) HO') as NE. fold o in NE.
    split; [apply expected_intro with (2 := infit_one M cats pattern probs mc HP HQ HA _ l (fun n => n) (fun _ => i) HL HO' HV')|apply expected_intro with (2 := outfit_one M cats pattern probs mc HP HQ HA _ l (fun n => n) (fun _ => i) HL HO' HV')];
      intros data Hd; destruct (C data Hd ltac:(lia)) as [(inf & out & E & _ & _ & V) _]; rewrite E; cbn [infit_entry outfit_entry]; unfold fl_entry; destruct (V i Hi) as [V1 V2]; fold l in V1, V2;
      rewrite (filter_seen cats pattern HQ data l (fun n => n) (fun _ => i) Hd HL) in V1, V2; fold o in V1, V2.
    + rewrite V1.
      * rewrite infit_of_some by exact NE. reflexivity.
      * right. apply Rgt_not_eq. apply rsum_positive; [exact NE|]. intros x Hx. apply filter_In in Hx as [H1 H2]. now apply HV'.
    + rewrite V2.
      * rewrite outfit_of_some by exact NE. reflexivity.
      * intros x Hx. left. apply filter_In in Hx as [H1 H2]. apply Rgt_not_eq. now apply HV'.
  - intros n Hn HO HV. set (l := seq 0 I). set (o := filter (fun i => asked pattern n i) l).
    assert (HL : forall x, In x l -> (n < N)%nat /\ (x < I)%nat) by (intros x Hx; apply in_seq in Hx; split; [exact Hn|lia]).
    assert (HO' : exists x, In x l /\ asked pattern n x = true) by (destruct HO as (i & Hi & Ha); exists i; split; [apply in_seq; lia|exact Ha]).
    assert (HV' : forall x, In x l -> asked pattern n x = true -> 0 < cell_spread mc probs n x) by (intros x Hx; apply HV; now apply HL).
    assert (HI : (0 < I)%nat) by (destruct HO as (i & Hi & _); lia).
    pose proof (o_nonempty pattern _ l (fun _ => n) (fun i => i) HO') as NE. fold o in NE.
    split; [apply expected_intro with (2 := infit_one M cats pattern probs mc HP HQ HA _ l (fun _ => n) (fun i => i) HL HO' HV')|apply expected_intro with (2 := outfit_one M cats pattern probs mc HP HQ HA _ l (fun _ => n) (fun i => i) HL HO' HV')];
      intros data Hd; destruct (C data Hd HI) as [_ (inf & out & E & _ & _ & V)]; rewrite E; cbn [infit_entry outfit_entry]; unfold fl_entry; destruct (V n Hn) as [V1 V2]; fold l in V1, V2;
      rewrite (filter_seen cats pattern HQ data l (fun _ => n) (fun i => i) Hd HL) in V1, V2; fold o in V1, V2.
    + rewrite V1.
      * rewrite infit_of_some by exact NE. reflexivity.
      * right. apply Rgt_not_eq. apply rsum_positive; [exact NE|]. intros x Hx. apply filter_In in Hx as [H1 H2]. now apply HV'.
    + rewrite V2.
      * rewrite outfit_of_some by exact NE. reflexivity.
      * intros x Hx. left. apply filter_In in Hx as [H1 H2]. apply Rgt_not_eq. now apply HV'.
Qed.
Print Assumptions C129_infit_outfit.

(** ** Residuals *)
Lemma known_map {A} (b : A -> bool) (v : A -> R) (h : A -> option R) l : (forall x, In x l -> h x = if b x then Some (v x) else None) -> known (map h l) = map v (filter b l).
Proof.
  induction l as [|x l IH]; intros H; [reflexivity|]. cbn [map filter]. rewrite (H x (or_introl eq_refl)). destruct (b x); cbn [known map]; rewrite IH by (intros; apply H; now right); reflexivity.
Qed.
Lemma mean_of_some l x : l <> [] -> mean_of l x -> x = Some (rsum l / INR (length l)).
Proof.
  intros N H. unfold mean_of in H. destruct l as [|a l]; [now destruct N|]. destruct H as (m & -> & E). f_equal. rewrite <- E. field. apply inr_length. discriminate.
Qed.
Lemma rows_listed {A} (r : list (list A)) N : length r = N -> r = map (fun n => nth n r []) (seq 0 N).
Proof.
  intros L. apply nth_error_ext. intros n. rewrite nth_error_map. destruct (Nat.lt_ge_cases n N) as [H|H].
  - rewrite nth_error_seq by exact H. cbn [option_map Nat.add]. now apply nth_error_nth_lt; rewrite L.
  - rewrite (proj2 (nth_error_None r n)) by lia. rewrite (proj2 (nth_error_None (seq 0 N) n)) by (rewrite seq_length; lia). reflexivity.
Qed.
Lemma row_listed {A} (d : A) row I : length row = I -> row = map (fun i => nth i row d) (seq 0 I).
Proof.
  intros L. apply nth_error_ext. intros n. rewrite nth_error_map. destruct (Nat.lt_ge_cases n I) as [H|H].
  - rewrite nth_error_seq by exact H. cbn [option_map Nat.add]. now apply nth_error_nth_lt; rewrite L.
  - rewrite (proj2 (nth_error_None row n)) by lia. rewrite (proj2 (nth_error_None (seq 0 I) n)) by (rewrite seq_length; lia). reflexivity.
Qed.
Lemma concat_listed {A} (d : A) r N I : rect N I r -> concat r = map (fun c => nth (snd c) (nth (fst c) r []) d) (all_cells N I).
Proof.
  intros [L F]. unfold all_cells. revert N L. induction r as [|row r IH]; intros N L; subst N; [reflexivity|]. cbn [length seq list_prod concat]. rewrite map_app. f_equal.
  - rewrite map_map. cbn [fst snd nth]. apply row_listed. apply (Forall_inv F).
  - rewrite (IH (Forall_inv_tail F) (length r) eq_refl). rewrite <- seq_shift. generalize (seq 0 (length r)). intros l. induction l as [|n l IHl]; [reflexivity|].
    cbn [map list_prod]. rewrite !map_app, IHl. f_equal. rewrite !map_map. apply map_ext. intros i. reflexivity.
Qed.
Lemma at2_value {A} (r : list (list A)) n i y d : at2 r n i = Some y -> nth i (nth n r []) d = y.
Proof. unfold at2. destruct (nth_error r n) eqn:E; [|discriminate]. intros H. rewrite (nth_error_nth _ _ [] E). now apply nth_error_nth. Qed.
Lemma agreement_bound p : (forall k, 0 <= nth k p 0) -> rsum p = 1 -> agreement p <= 1 /\ ((exists k, 0 < nth k p 0 < 1) -> agreement p < 1).
Proof.
  intros H S. rewrite rsum_nth in S. unfold agreement.
  assert (U : forall k, nth k p 0 <= 1).
  { intros k. destruct (Nat.lt_ge_cases k (length p)) as [Hk|Hk]; [|rewrite nth_overflow by exact Hk; lra]. rewrite <- S. apply (sumn_term_le (length p) (fun k => nth k p 0)); [intros; apply H|exact Hk]. }
  split.
  - rewrite <- S. apply sumn_le. intros k _. specialize (H k). specialize (U k). nra.
  - intros (k & Hk). assert (Lk : (k < length p)%nat). { destruct (Nat.lt_ge_cases k (length p)); [assumption|]. rewrite nth_overflow in Hk by assumption. lra. }
    assert (D : 0 < sumn (length p) (fun k => nth k p 0 - nth k p 0 * nth k p 0)).
    { apply (sumn_pos_one _ _ k); [|exact Lk|]; [intros j _; specialize (H j); specialize (U j); nra|nra]. }
    rewrite sumn_minus, S in D. lra.
Qed.

(** Residuals of a model without a key are 0 on average over the answers; those of a model with a key are on average one
    minus the chance that two answers agree, which is positive unless the answer is certain. *)
Theorem C129_residuals M cats pattern probs mc :
  let N := length pattern in let I := length cats in
  (0 < M)%nat -> rect N I probs -> rect N I pattern -> answers_as M cats probs ->
  let usual := fun n i => usual_residual mc (probs_at probs n i) in
  (forall i, (i < I)%nat -> (exists n, (n < N)%nat /\ asked pattern n i = true) ->
     expected cats pattern probs (fun data => vec_entry (fst (residuals M mc probs (Wide I data) AvRespondents)) i)
       (mean_where (fun n => asked pattern n i) (fun n => usual n i) (everyone N))) /\
  (forall n, (n < N)%nat -> (exists i, (i < I)%nat /\ asked pattern n i = true) ->
     expected cats pattern probs (fun data => vec_entry (fst (residuals M mc probs (Wide I data) AvItems)) n)
       (mean_where (fun i => asked pattern n i) (fun i => usual n i) (seq 0 I))) /\
  ((exists n i, (n < N)%nat /\ (i < I)%nat /\ asked pattern n i = true) ->
     expected cats pattern probs (fun data => one_entry (fst (residuals M mc probs (Wide I data) AvEverything)))
       (mean_where (fun c => asked pattern (fst c) (snd c)) (fun c => usual (fst c) (snd c)) (all_cells N I))) /\
  (mc = None -> forall n i, usual n i = 0) /\
  (mc <> None -> forall n i, (n < N)%nat -> (i < I)%nat -> 0 <= usual n i /\ ((exists k, 0 < nth k (probs_at probs n i) 0 < 1) -> 0 < usual n i)).
Proof.
  intros N I HM HP HQ HA usual.
  set (res := fun n i d => match mc with None => INR (pick (nth n d []) i) - mean_score (probs_at probs n i) | Some _ => 1 - nth (pick (nth n d []) i) (probs_at probs n i) 0 end).
  assert (RA : forall n i, (n < N)%nat -> (i < I)%nat -> asked pattern n i = true -> on_average cats pattern probs (res n i) = usual n i).
  { intros n i Hn Hi Ha. unfold res, usual, usual_residual. destruct (HA n i _ (probs_cell cats pattern probs HP n i Hn Hi)) as (_ & _ & _ & _ & T). rewrite rsum_nth in T. destruct mc.
    - rewrite (cell_average M cats pattern probs HP HQ HA n i (fun k => 1 - nth k (probs_at probs n i) 0)) by assumption. unfold agreement.
      transitivity (sumn (length (probs_at probs n i)) (fun k => nth k (probs_at probs n i) 0) - sumn (length (probs_at probs n i)) (fun k => nth k (probs_at probs n i) 0 * nth k (probs_at probs n i) 0)); [|now rewrite T].
      rewrite <- sumn_minus. apply sumn_ext. intros; ring.
    - rewrite (cell_average M cats pattern probs HP HQ HA n i (fun k => INR k - mean_score (probs_at probs n i))) by assumption.
      rewrite (sumn_ext _ _ (fun k => INR k * nth k (probs_at probs n i) 0 - nth k (probs_at probs n i) 0 * mean_score (probs_at probs n i))) by (intros; ring).
      rewrite sumn_minus, sumn_scal_r, T. unfold mean_score. ring. }
  assert (C : forall data, In data (possible_data cats pattern) -> (0 < I)%nat -> exists r, rect N I r /\ (forall n i, (n < N)%nat -> (i < I)%nat -> nth i (nth n r []) None = if asked pattern n i then Some (res n i data) else None) /\
    fst (residuals M mc probs (Wide I data) AvOther) = Ok (Full r) /\
    (exists l, fst (residuals M mc probs (Wide I data) AvItems) = Ok (Vec l) /\ length l = N /\
       forall n row, nth_error r n = Some row -> exists x, nth_error l n = Some x /\ mean_of (known row) x) /\
    (exists l, fst (residuals M mc probs (Wide I data) AvRespondents) = Ok (Vec l) /\ length l = I /\
       forall i, (i < I)%nat -> exists x, nth_error l i = Some x /\ mean_of (known (column_of r i)) x) /\
    (exists x, fst (residuals M mc probs (Wide I data) AvEverything) = Ok (One x) /\ mean_of (known (concat r)) x)).
  { intros data Hd HI. pose proof (table_rect cats pattern HQ data Hd HI) as HR.
    destruct (C54_residuals N I M mc probs data HM HP HR (fun n i p H => proj1 (HA n i p H))) as (r & R1 & R2 & R3).
    - intros _ n i z Hz. assert (Hn : (n < N)%nat /\ (i < I)%nat).
      { destruct HR as [L F]. unfold at2 in Hz. destruct (nth_error data n) as [row|] eqn:E; [|discriminate]. assert (n < length data)%nat by (apply nth_error_Some; congruence).
        rewrite Forall_forall in F. pose proof (F row (nth_error_In _ _ E)). assert (i < length row)%nat by (apply nth_error_Some; congruence). lia. }
      destruct Hn as [Hn Hi]. destruct (table_cell cats pattern HQ data n i Hd Hn Hi) as [E B]. rewrite Hz in E. destruct (asked pattern n i); [|discriminate]. injection E as ->.
      destruct (HA n i _ (probs_cell cats pattern probs HP n i Hn Hi)) as (_ & K & _). specialize (B eq_refl). lia.
    - exists r. split; [exact R1|]. split; [|exact R3]. intros n i Hn Hi. pose proof (probs_cell cats pattern probs HP n i Hn Hi) as HPc.
      destruct (R2 n i _ Hn Hi HPc) as [A B]. destruct (table_cell cats pattern HQ data n i Hd Hn Hi) as [E _]. pose proof (table_seen cats pattern HQ data n i Hd Hn Hi) as S.
      apply at2_value. destruct (asked pattern n i).
      + rewrite (B _ S E). unfold res. f_equal. f_equal. rewrite Nat2Z.id, <- INR_IZR_INZ. reflexivity.
      + now apply A. }
  split; [|split; [|split; [|split]]].
  - intros i Hi (n0 & Hn0 & Ha0). eapply expected_intro with (x := fun d => rsum (map (fun n => res n i d) (filter (fun n => asked pattern n i) (everyone N))) / INR (length (filter (fun n => asked pattern n i) (everyone N)))).
    + intros data Hd. destruct (C data Hd ltac:(lia)) as (r & R1 & R2 & _ & _ & (l & -> & _ & V) & _). destruct (V i Hi) as (x & E & Mx). cbn [vec_entry]. unfold real_entry. rewrite E.
      unfold column_of in Mx. rewrite (rows_listed r N (proj1 R1)), map_map in Mx. rewrite (known_map (fun n => asked pattern n i) (fun n => res n i data)) in Mx.
      * apply mean_of_some in Mx; [rewrite Mx, map_length; reflexivity|]. intros F. apply map_eq_nil in F. revert F. apply filter_nonempty with n0; [apply in_seq; lia|exact Ha0].
      * intros n Hn. apply in_seq in Hn. apply R2; [lia|exact Hi].
    + unfold mean_where. rewrite (average_ratio M cats pattern probs HP HQ HA _ (fun n => res n i) (fun n => usual n i)); [reflexivity|]. intros n Hn. apply filter_In in Hn as [Hn Ha]. apply in_seq in Hn. apply RA; [lia|exact Hi|exact Ha].
  - intros n Hn (i0 & Hi0 & Ha0). eapply expected_intro with (x := fun d => rsum (map (fun i => res n i d) (filter (fun i => asked pattern n i) (seq 0 I))) / INR (length (filter (fun i => asked pattern n i) (seq 0 I)))).
    + intros data Hd. destruct (C data Hd ltac:(lia)) as (r & R1 & R2 & _ & (l & -> & _ & V) & _). destruct R1 as [L1 F1]. destruct (V n (nth n r [])) as (x & E & Mx); [apply nth_error_nth_lt; lia|]. cbn [vec_entry]. unfold real_entry. rewrite E.
      rewrite Forall_forall in F1. rewrite (row_listed None (nth n r []) I) in Mx by (apply F1, nth_In; lia). rewrite (known_map (fun i => asked pattern n i) (fun i => res n i data)) in Mx.
      * apply mean_of_some in Mx; [rewrite Mx, map_length; reflexivity|]. intros F. apply map_eq_nil in F. revert F. apply filter_nonempty with i0; [apply in_seq; lia|exact Ha0].
      * intros i Hi. apply in_seq in Hi. apply R2; [exact Hn|lia].
    + unfold mean_where. rewrite (average_ratio M cats pattern probs HP HQ HA _ (fun i => res n i) (fun i => usual n i)); [reflexivity|]. intros i Hi. apply filter_In in Hi as [Hi Ha]. apply in_seq in Hi. apply RA; [exact Hn|lia|exact Ha].
  - intros (n0 & i0 & Hn0 & Hi0 & Ha0). set (o := filter (fun c => asked pattern (fst c) (snd c)) (all_cells N I)).
    eapply expected_intro with (x := fun d => rsum (map (fun c => res (fst c) (snd c) d) o) / INR (length o)).
    + intros data Hd. destruct (C data Hd ltac:(lia)) as (r & R1 & R2 & _ & _ & _ & (x & -> & Mx)). cbn [one_entry].
      rewrite (concat_listed None r N I R1) in Mx. rewrite (known_map (fun c => asked pattern (fst c) (snd c)) (fun c => res (fst c) (snd c) data)) in Mx.
      * fold o in Mx. apply mean_of_some in Mx; [rewrite Mx, map_length; reflexivity|]. intros F. apply map_eq_nil in F. revert F. apply filter_nonempty with (n0, i0); [apply in_prod; apply in_seq; lia|exact Ha0].
      * intros c Hc. destruct c as [n i]. apply in_prod_iff in Hc as [Hn Hi]. apply in_seq in Hn, Hi. apply R2; cbn [fst snd]; lia.
    + unfold mean_where. fold o. rewrite (average_ratio M cats pattern probs HP HQ HA _ (fun c => res (fst c) (snd c)) (fun c => usual (fst c) (snd c))); [reflexivity|]. intros [n i] Hc. apply filter_In in Hc as [Hc Ha]. apply in_prod_iff in Hc as [Hn Hi]. apply in_seq in Hn, Hi. cbn [fst snd] in *. apply RA; [lia|lia|exact Ha].
  - intros -> n i. reflexivity.
  - intros HMc n i Hn Hi. unfold usual, usual_residual. destruct mc as [key|]; [|now destruct HMc]. destruct (HA n i _ (probs_cell cats pattern probs HP n i Hn Hi)) as (_ & _ & P & _ & T).
    destruct (agreement_bound _ P T) as [B1 B2]. split; [lra|]. intros E. specialize (B2 E). lra.
Qed.
Print Assumptions C129_residuals.

(** ** Accuracy *)
Lemma tally_sum {A} (c b : A -> bool) l : (forall x, In x l -> b x = false -> c x = false) -> INR (tally c l) = rsum (map (fun x => if c x then 1 else 0) (filter b l)).
Proof.
  unfold tally. induction l as [|x l IH]; intros H; [reflexivity|]. specialize (IH (fun y Hy => H y (or_intror Hy))). pose proof (H x (or_introl eq_refl)) as Hx. cbn [filter].
  destruct (b x) eqn:B; cbn [map rsum].
  - destruct (c x); cbn [length]; rewrite ?S_INR, IH; ring.
  - rewrite (Hx eq_refl). exact IH.
Qed.
Lemma share_some a b : b <> O -> share a b = Some (INR a / INR b).
Proof. intros H. unfold share. apply Nat.eqb_neq in H. now rewrite H. Qed.
Section Shares.
  Variables (M : nat) (cats : list nat) (pattern : list (list bool)) (probs : list (list (list R))).
  Let I := length cats.
  Let N := length pattern.
  Hypotheses (HP : rect N I probs) (HQ : rect N I pattern) (HA : answers_as M cats probs).
  Variables (A : Type) (l : list A) (fn fi fk : A -> nat).
  Hypotheses (HL : forall x, In x l -> (fn x < N)%nat /\ (fi x < I)%nat) (HO : exists x, In x l /\ asked pattern (fn x) (fi x) = true).
  (** The share of the answers that are as [fk] says. *)
  Lemma share_average : exists x, (forall d, In d (possible_data cats pattern) ->
      share (tally (fun c => chose d (fn c) (fi c) (fk c)) l) (tally (fun c => seen d (fn c) (fi c)) l) = Some (x d)) /\
    on_average cats pattern probs x = mean_where (fun c => asked pattern (fn c) (fi c)) (fun c => nth (fk c) (probs_at probs (fn c) (fi c)) 0) l.
  Proof.
    set (o := filter (fun c => asked pattern (fn c) (fi c)) l). assert (NE : o <> []) by exact (o_nonempty pattern A l fn fi HO).
    exists (fun d => rsum (map (fun c => if (pick (nth (fn c) d []) (fi c) =? fk c)%nat then 1 else 0) o) / INR (length o)). split.
    - intros d Hd. assert (E : tally (fun c => seen d (fn c) (fi c)) l = length o). { unfold tally. now rewrite (filter_seen cats pattern HQ d l fn fi Hd HL). }
      rewrite E, share_some by (destruct o; [now destruct NE|discriminate]). f_equal. f_equal.
      rewrite (tally_sum _ (fun c => asked pattern (fn c) (fi c))).
      + fold o. f_equal. apply map_ext_in. intros c Hc. apply filter_In in Hc as [Hc Ha]. destruct (HL c Hc). now rewrite (table_chose cats pattern HQ) by assumption.
      + intros c Hc Ha. destruct (HL c Hc). now apply (table_unchosen cats pattern HQ).
    - unfold mean_where. fold o. apply (average_ratio M cats pattern probs HP HQ HA o (fun c d => if (pick (nth (fn c) d []) (fi c) =? fk c)%nat then 1 else 0)). intros c Hc. apply filter_In in Hc as [Hc Ha]. destruct (HL c Hc) as [Hn Hi].
      rewrite (cell_average M cats pattern probs HP HQ HA (fn c) (fi c) (fun k => if (k =? fk c)%nat then 1 else 0)) by assumption.
      destruct (Nat.lt_ge_cases (fk c) (length (probs_at probs (fn c) (fi c)))) as [Hk|Hk].
      + rewrite (sumn_single _ (fk c)); [rewrite Nat.eqb_refl; ring|exact Hk|]. intros k _ Hne. apply Nat.eqb_neq in Hne. rewrite Hne. ring.
      + rewrite nth_overflow by exact Hk. rewrite (sumn_ext _ _ (fun _ => 0)); [apply sumn_0|]. intros k Hk'. destruct (Nat.eqb_spec k (fk c)); [lia|ring].
  Qed.
End Shares.

(** Accuracy is on average the mean probability of the most probable category. *)
Theorem C129_accuracy M cats pattern probs pred :
  let N := length pattern in let I := length cats in
  rect N I probs -> rect N I pattern -> answers_as M cats probs -> (forall n i p, at2 probs n i = Some p -> top p (pred n i)) ->
  let best := fun n i => nth (pred n i) (probs_at probs n i) 0 in
  (forall i, (i < I)%nat -> (exists n, (n < N)%nat /\ asked pattern n i = true) ->
     expected cats pattern probs (fun data => vec_entry (accuracy probs (Wide I data) LItem) i) (mean_where (fun n => asked pattern n i) (fun n => best n i) (everyone N))) /\
  (forall n, (n < N)%nat -> (exists i, (i < I)%nat /\ asked pattern n i = true) ->
     expected cats pattern probs (fun data => vec_entry (accuracy probs (Wide I data) LRespondent) n) (mean_where (fun i => asked pattern n i) (fun i => best n i) (seq 0 I))) /\
  ((exists n i, (n < N)%nat /\ (i < I)%nat /\ asked pattern n i = true) ->
     expected cats pattern probs (fun data => one_entry (accuracy probs (Wide I data) LAll))
       (mean_where (fun c => asked pattern (fst c) (snd c)) (fun c => best (fst c) (snd c)) (all_cells N I))).
Proof.
  intros N I HP HQ HA HT best. split; [|split].
  - intros i Hi (n0 & Hn0 & Ha0). assert (HL : forall x, In x (everyone N) -> (x < N)%nat /\ (i < I)%nat) by (intros x Hx; apply in_seq in Hx; split; [lia|exact Hi]).
    destruct (share_average M cats pattern probs HP HQ HA nat (everyone N) (fun n => n) (fun _ => i) (fun n => pred n i) HL) as (x & X1 & X2); [exists n0; split; [apply in_seq; lia|exact Ha0]|].
    apply expected_intro with (2 := X2). intros data Hd. destruct (C53_accuracy N I probs data pred HP (table_rect cats pattern HQ data Hd ltac:(lia)) HT) as (-> & _). cbn [vec_entry]. unfold real_entry.
    rewrite nth_error_map, nth_error_seq by exact Hi. cbn [option_map Nat.add]. now rewrite (X1 data Hd).
  - intros n Hn (i0 & Hi0 & Ha0). assert (HL : forall x, In x (seq 0 I) -> (n < N)%nat /\ (x < I)%nat) by (intros x Hx; apply in_seq in Hx; split; [exact Hn|lia]).
    destruct (share_average M cats pattern probs HP HQ HA nat (seq 0 I) (fun _ => n) (fun i => i) (fun i => pred n i) HL) as (x & X1 & X2); [exists i0; split; [apply in_seq; lia|exact Ha0]|].
    apply expected_intro with (2 := X2). intros data Hd. destruct (C53_accuracy N I probs data pred HP (table_rect cats pattern HQ data Hd ltac:(lia)) HT) as (_ & -> & _). cbn [vec_entry]. unfold real_entry.
    rewrite nth_error_map, nth_error_seq by exact Hn. cbn [option_map Nat.add]. now rewrite (X1 data Hd).
  - intros (n0 & i0 & Hn0 & Hi0 & Ha0). assert (HL : forall x, In x (all_cells N I) -> (fst x < N)%nat /\ (snd x < I)%nat) by (intros [n i] Hx; apply in_prod_iff in Hx as [H1 H2]; apply in_seq in H1, H2; cbn; lia).
    destruct (share_average M cats pattern probs HP HQ HA (nat * nat) (all_cells N I) fst snd (fun c => pred (fst c) (snd c)) HL) as (x & X1 & X2); [exists (n0, i0); split; [apply in_prod; apply in_seq; lia|exact Ha0]|].
    apply expected_intro with (2 := X2). intros data Hd. destruct (C53_accuracy N I probs data pred HP (table_rect cats pattern HQ data Hd ltac:(lia)) HT) as (_ & _ & ->). cbn [one_entry]. now rewrite (X1 data Hd).
Qed.
Print Assumptions C129_accuracy.

(** ** Groups of respondents *)
Lemma mean_where_all {A} (b : A -> bool) (f : A -> R) l : (forall x, In x l -> b x = true) -> mean_where b f l = rsum (map f l) / INR (length l).
Proof.
  intros H. unfold mean_where. replace (filter b l) with l; [reflexivity|]. symmetry. induction l as [|x l IH]; [reflexivity|]. cbn [filter]. rewrite (H x (or_introl eq_refl)). f_equal. apply IH. intros; apply H; now right.
Qed.
Lemma iprob_at (iprob : list R -> list (list R)) thetas n i : (n < length thetas)%nat -> probs_at (map iprob thetas) n i = nth i (iprob (nth n thetas [])) [].
Proof. intros H. unfold probs_at. f_equal. apply nth_error_nth. rewrite nth_error_map, (nth_error_nth_lt thetas n []) by exact H. reflexivity. Qed.
(** The residual of category [k] of an item in a group of respondents is on average the mean probability of the category
    among the members who answered the item, minus its mean probability among all members. It is 0 when all answered. *)
Theorem C129_groups M iprob lv cats (scale : option (list (list R) -> list (list R))) thetas train pattern groups j :
  let probs := map iprob thetas in let N := length pattern in let I := length cats in
  let scores := match scale with Some f => f thetas | None => thetas end in
  let score := fun n => nth j (nth n scores []) 0 in
  length thetas = N -> length scores = N -> (0 < N)%nat -> (0 < groups)%nat -> (j < lv)%nat ->
  rect N I probs -> rect N I pattern -> answers_as M cats probs ->
  exists order gs, increasing_order score N order /\ cut_into order (ceil_div N groups) gs /\
    forall g G i k, nth_error gs g = Some G -> (i < I)%nat -> (k < nth i cats O)%nat -> (exists n, In n G /\ asked pattern n i = true) ->
      let gap := mean_where (fun n => asked pattern n i) (fun n => nth k (probs_at probs n i) 0) G - rsum (map (fun n => nth k (probs_at probs n i) 0) G) / INR (length G) in
      expected cats pattern probs (fun data => group_entry (group_fit_residuals iprob lv cats scale thetas train (Some data) groups (S j) false) g i k) gap /\
      ((forall n, In n G -> asked pattern n i = true) -> gap = 0).
Proof.
  intros probs N I scores score HT HS HN Hg Hj HP HQ HA.
  (* one table, to learn how the respondents are grouped *)
  exists (argsort_r (column 0 j scores)), (chunk groups (argsort_r (column 0 j scores))).
  set (rows0 := map (fun _ : list bool => @nil cell) pattern). assert (L0 : length rows0 = N) by (unfold rows0; apply map_length).
  pose proof (gs_cut lv cats scale thetas rows0 groups j) as GC. pose proof (order_increasing lv cats scale thetas rows0 groups j) as GO. rewrite L0 in GC, GO.
  specialize (GC HT HS HN Hg Hj). specialize (GO HT HS HN Hg Hj). fold scores in GC, GO. destruct GC as [GC _]. split; [exact GO|]. split; [exact GC|].
  intros g G i k HG Hi Hk (n0 & Hn0 & Ha0) gap.
  assert (Gn : forall n, In n G -> (n < N)%nat).
  { intros n Hn. destruct GC as [C1 _]. destruct GO as (_ & O & _). apply O. rewrite <- C1. apply in_concat. exists G. split; [apply (nth_error_In _ _ HG)|exact Hn]. }
  assert (KM : (nth i cats O <= list_max cats)%nat). { pose proof (proj1 (list_max_le cats (list_max cats)) (le_n _)) as F. rewrite Forall_forall in F. apply F, nth_In, Hi. }
  split; [|intros All; unfold gap; rewrite (mean_where_all _ _ _ All); ring].
  destruct (share_average M cats pattern probs HP HQ HA nat G (fun n => n) (fun _ => i) (fun _ => k)) as (x & X1 & X2); [intros n Hn; split; [now apply Gn|exact Hi]|exists n0; now split|].
  apply expected_intro with (x := fun d => x d + - (rsum (map (fun n => nth k (probs_at probs n i) 0) G) / INR (length G))).
  - intros d Hd. pose proof (table_rect cats pattern HQ d Hd ltac:(lia)) as HR. assert (Ld : length d = N) by apply HR. unfold group_entry.
    rewrite (raw_ok iprob lv cats scale thetas d groups j) with (1 := eq_trans HT (eq_sym Ld)); try assumption; try (rewrite Ld; assumption); [| |reflexivity].
    + fold scores. rewrite (at3_map (fun G i k => raw_entry iprob cats thetas d G i k) _ _ _ _ G) by (assumption || lia). unfold raw_entry. destruct (Nat.leb_spec (nth i cats O) k); [lia|].
      unfold observed_share. rewrite (X1 d Hd). cbn [option_map]. unfold Rminus. do 2 f_equal. unfold model_share. do 3 f_equal. apply map_ext_in. intros n Hn. unfold probs. rewrite iprob_at; [reflexivity|]. rewrite HT. now apply Gn.
    + intros n i' Hs. destruct (table_outside cats pattern HQ d n i' Hd ltac:(lia) Hs) as [Hn Hi']. rewrite (table_seen cats pattern HQ d n i' Hd Hn Hi') in Hs.
      exists (pick (nth n d []) i'). split; [|rewrite (table_chose cats pattern HQ) by assumption; apply Nat.eqb_refl]. destruct (table_cell cats pattern HQ d n i' Hd Hn Hi') as [_ B]. specialize (B Hs).
      pose proof (proj1 (list_max_le cats (list_max cats)) (le_n _)) as F. rewrite Forall_forall in F. pose proof (F (nth i' cats O) (nth_In _ _ Hi')). lia.
  - rewrite (average_plus cats pattern probs x (fun _ => _)), (average_const M cats pattern probs HP HQ HA), X2. reflexivity.
Qed.
Print Assumptions C129_groups.

(** Standardized residuals of a group whose members all answered the item: 0 on average, and 1 on average when squared only
    if the members have the same probability; otherwise less. *)
Theorem C129_standardized M iprob lv cats (scale : option (list (list R) -> list (list R))) thetas train pattern groups j :
  let probs := map iprob thetas in let N := length pattern in let I := length cats in
  let scores := match scale with Some f => f thetas | None => thetas end in
  let score := fun n => nth j (nth n scores []) 0 in
  length thetas = N -> length scores = N -> (0 < N)%nat -> (0 < groups)%nat -> (j < lv)%nat ->
  rect N I probs -> rect N I pattern -> answers_as M cats probs ->
  exists order gs, increasing_order score N order /\ cut_into order (ceil_div N groups) gs /\
    forall g G i k, nth_error gs g = Some G -> (i < I)%nat -> (k < nth i cats O)%nat -> (forall n, In n G -> asked pattern n i = true) ->
      let p := fun n => nth k (probs_at probs n i) 0 in let m := rsum (map p G) / INR (length G) in
      0 < m < 1 ->
      let entry := fun data => group_entry (group_fit_residuals iprob lv cats scale thetas train (Some data) groups (S j) true) g i k in
      let v := rsum (map (fun n => p n * (1 - p n)) G) / INR (length G) / (m * (1 - m)) in
      expected cats pattern probs entry 0 /\ expected cats pattern probs (fun data => option_map (fun x => x * x) (entry data)) v /\
      v <= 1 /\ ((exists a b, In a G /\ In b G /\ p a <> p b) -> v < 1) /\ ((forall a, In a G -> p a = m) -> v = 1).
Proof.
  intros probs N I scores score HT HS HN Hg Hj HP HQ HA.
  exists (argsort_r (column 0 j scores)), (chunk groups (argsort_r (column 0 j scores))).
  set (rows0 := map (fun _ : list bool => @nil cell) pattern). assert (L0 : length rows0 = N) by (unfold rows0; apply map_length).
  pose proof (gs_cut lv cats scale thetas rows0 groups j) as GC. pose proof (order_increasing lv cats scale thetas rows0 groups j) as GO. rewrite L0 in GC, GO.
  specialize (GC HT HS HN Hg Hj). specialize (GO HT HS HN Hg Hj). fold scores in GC, GO. destruct GC as [GC _]. split; [exact GO|]. split; [exact GC|].
  intros g G i k HG Hi Hk Ha p m Hm entry v.
  assert (Gn : forall n, In n G -> (n < N)%nat).
  { intros n Hn. destruct GC as [C1 _]. destruct GO as (_ & O & _). apply O. rewrite <- C1. apply in_concat. exists G. split; [apply (nth_error_In _ _ HG)|exact Hn]. }
  assert (ND : NoDup G).
  { destruct GC as [C1 _]. destruct GO as (O & _ & _). rewrite <- C1 in O. destruct (nth_error_split _ _ HG) as (a & b & E & _). rewrite E, concat_app in O. cbn [concat] in O.
    apply NoDup_remove_app in O. exact O. }
  assert (NE : G <> []) by (apply (proj2 GC g G HG)).
  assert (LG : 0 < INR (length G)) by (destruct G; [now destruct NE|apply lt_0_INR; cbn; lia]).
  assert (KM : (nth i cats O <= list_max cats)%nat). { pose proof (proj1 (list_max_le cats (list_max cats)) (le_n _)) as F. rewrite Forall_forall in F. apply F, nth_In, Hi. }
  set (s := sqrt (m * (1 - m) / INR (length G))). assert (Vm : 0 < m * (1 - m)) by nra. assert (Vs : 0 < m * (1 - m) / INR (length G)) by (apply Rdiv_lt_0_compat; assumption).
  assert (Sp : 0 < s) by (now apply sqrt_lt_R0). assert (Ss : s * s = m * (1 - m) / INR (length G)) by (apply sqrt_sqrt; lra).
  set (D := fun d => rsum (map (fun n => deviation probs i k n d) G)).
  assert (EV : forall d, In d (possible_data cats pattern) -> entry d = Some (D d * / (INR (length G) * s))).
  { intros d Hd. pose proof (table_rect cats pattern HQ d Hd ltac:(lia)) as HR. assert (Ld : length d = N) by apply HR. unfold entry, group_entry.
    rewrite (std_ok iprob lv cats scale thetas d groups j) with (1 := eq_trans HT (eq_sym Ld)); try assumption; try (rewrite Ld; assumption).
    2:{ intros n i' Hs. destruct (table_outside cats pattern HQ d n i' Hd ltac:(lia) Hs) as [Hn Hi']. rewrite (table_seen cats pattern HQ d n i' Hd Hn Hi') in Hs.
      exists (pick (nth n d []) i'). split; [|rewrite (table_chose cats pattern HQ) by assumption; apply Nat.eqb_refl]. destruct (table_cell cats pattern HQ d n i' Hd Hn Hi') as [_ B]. specialize (B Hs).
      pose proof (proj1 (list_max_le cats (list_max cats)) (le_n _)) as F. rewrite Forall_forall in F. pose proof (F (nth i' cats O) (nth_In _ _ Hi')). lia. }
    fold scores. rewrite (at3_map (fun G i k => std_residual (length G) (observed_share d G i k) (Some (model_share iprob thetas G i k))) _ _ _ _ G) by (assumption || lia).
    assert (Em : model_share iprob thetas G i k = m).
    { unfold model_share, m, p. do 2 f_equal. apply map_ext_in. intros n Hn. unfold probs. rewrite iprob_at; [reflexivity|]. rewrite HT. now apply Gn. }
    rewrite Em. unfold observed_share. rewrite (tally_ext (fun n => seen d n i) (fun _ => true) G).
    2:{ intros n Hn. rewrite (table_seen cats pattern HQ) by (assumption || now apply Gn). now apply Ha. }
    assert (Et : tally (fun _ : nat => true) G = length G) by (unfold tally; clear; induction G; cbn; congruence). rewrite Et, share_some by (destruct G; [now destruct NE|discriminate]).
    rewrite std_residual_value by (assumption || (destruct G; [now destruct NE|cbn; lia])). fold s. f_equal.
    rewrite (tally_sum _ (fun _ => true)) by (intros; discriminate).
    assert (Ef : filter (fun _ : nat => true) G = G) by (clear; induction G; cbn; congruence). rewrite Ef.
    rewrite (map_ext_in _ (fun n => deviation probs i k n d + p n)).
    - rewrite rsum_map_plus. fold (D d). unfold m. field. split; lra.
    - intros n Hn. rewrite (table_chose cats pattern HQ) by (assumption || (now apply Gn) || now apply Ha). unfold deviation. fold (p n). ring. }
  destruct (deviation_sum M cats pattern probs HP HQ HA i k G ND Hi Hk (fun n Hn => conj (Gn n Hn) (Ha n Hn))) as [D1 D2].
  split; [|split; [|split; [|split]]].
  - apply expected_intro with (x := fun d => D d * / (INR (length G) * s)); [exact EV|]. rewrite average_scal. unfold D. rewrite D1. ring.
  - apply expected_intro with (x := fun d => D d * D d * / ((INR (length G) * s) * (INR (length G) * s))).
    + intros d Hd. rewrite (EV d Hd). cbn [option_map]. f_equal. field. split; lra.
    + rewrite (average_scal cats pattern probs _ (fun d => D d * D d)). unfold D. rewrite D2. fold (p). unfold v.
      replace (INR (length G) * s * (INR (length G) * s)) with (INR (length G) * INR (length G) * (s * s)) by ring. rewrite Ss. unfold p. field. split; [|split]; lra.
  - unfold v. apply (Rmult_le_reg_r (m * (1 - m))); [exact Vm|]. unfold Rdiv at 1. rewrite Rmult_assoc, Rinv_l, Rmult_1_l, Rmult_1_r by lra. apply (spread_of_mean p G NE).
  - intros Ne. unfold v. apply (Rmult_lt_reg_r (m * (1 - m))); [exact Vm|]. unfold Rdiv at 1. rewrite Rmult_assoc, Rinv_l, Rmult_1_l, Rmult_1_r by lra. now apply (spread_of_mean p G NE).
  - intros Eq. unfold v. rewrite (map_ext_in _ (fun _ => (m * (1 - m)) * 1)) by (intros a Ha'; rewrite (Eq a Ha'); ring). rewrite rsum_map_scal, rsum_ones. field. split; lra.
Qed.
Print Assumptions C129_standardized.

(** With missing answers the residuals of a right model need not be 0 on average: the observed shares are those of the
    members who answered, the expected ones those of all members. *)
Lemma two_rect : rect 2 1 (map two_people two_thetas).
Proof. split; [reflexivity|]. repeat (apply Forall_cons; [reflexivity|]). apply Forall_nil. Qed.
Lemma two_probs n : (n < 2)%nat -> probs_at (map two_people two_thetas) n 0 = [1 - nth n [1 / 4; 3 / 4] 0; nth n [1 / 4; 3 / 4] 0].
Proof. intros H. destruct n as [|[|n]]; [reflexivity|reflexivity|lia]. Qed.
Lemma two_answers : answers_as 2 [2%nat] (map two_people two_thetas).
Proof.
  intros n i p H. assert (E : i = O /\ (p = [1 - 1 / 4; 1 / 4] \/ p = [1 - 3 / 4; 3 / 4])).
  { destruct n as [|[|n]]; unfold at2 in H; cbn in H; [| |destruct n; discriminate]; (destruct i as [|i]; cbn in H; [split; [reflexivity|]; injection H as <-; auto|destruct i; discriminate]). }
  destruct E as [-> [->| ->]]; (split; [reflexivity|]; split; [cbn; lia|]; split; [intros [|[|[|k]]]; cbn; lra|]; split; [intros [|[|[|k]]] Hk; cbn in *; try lia; reflexivity|cbn; lra]).
Qed.
Lemma two_orders order : increasing_order (fun n => nth 0 (nth n two_thetas []) 0) 2 order -> order = [0; 1]%nat.
Proof.
  intros (O1 & O2 & O3). assert (P : Permutation [0; 1]%nat order).
  { apply NoDup_Permutation; [repeat constructor; cbn; lia|exact O1|]. intros x. rewrite O2. cbn. lia. }
  apply Permutation_length_2_inv in P as [->| ->]; [reflexivity|]. specialize (O3 1%nat 0%nat 0%nat 1%nat eq_refl eq_refl ltac:(lia)). cbn in O3. lra.
Qed.
Lemma two_groups gs : cut_into [0; 1]%nat (ceil_div 2 1) gs -> nth_error gs 0 = Some [0; 1]%nat.
Proof.
  intros [C1 C2]. destruct gs as [|G gs]; [discriminate|]. destruct (C2 0%nat G eq_refl) as [_ L]. cbn in L. cbn [concat] in C1. cbn [nth_error]. f_equal.
  destruct G as [|a [|b [|c G]]]; try discriminate. cbn [app] in C1. now injection C1 as -> -> _.
Qed.
Theorem C129_groups_refuted : exists M iprob lv cats (scale : option (list (list R) -> list (list R))) thetas pattern groups g i k v,
  let probs := map iprob thetas in
  rect (length pattern) (length cats) probs /\ rect (length pattern) (length cats) pattern /\ answers_as M cats probs /\ (0 < groups)%nat /\ (0 < lv)%nat /\
  (forall train, expected cats pattern probs (fun data => group_entry (group_fit_residuals iprob lv cats scale thetas train (Some data) groups 1 false) g i k) v) /\ v <> 0.
Proof.
  exists 2%nat, two_people, 1%nat, [2%nat], None, two_thetas, [[true]; [false]], 1%nat, 0%nat, 0%nat, 1%nat, (1 / 4 / 1 - (1 / 4 + (3 / 4 + 0)) / (1 + 1)).
  assert (HQ : rect 2 1 [[true]; [false]]) by (split; [reflexivity|]; repeat (apply Forall_cons; [reflexivity|]); apply Forall_nil).
  split; [exact two_rect|]. split; [exact HQ|]. split; [exact two_answers|]. split; [lia|]. split; [lia|]. split; [|lra].
  intros train. destruct (C129_groups 2 two_people 1 [2%nat] None two_thetas train [[true]; [false]] 1 0 eq_refl eq_refl ltac:(cbn; lia) ltac:(lia) ltac:(lia) two_rect HQ two_answers) as (order & gs & O & C & V).
  apply two_orders in O. subst order. apply two_groups in C. destruct (V 0%nat [0; 1]%nat 0%nat 1%nat C ltac:(cbn; lia) ltac:(cbn; lia)) as [E _]; [exists 0%nat; split; [now left|reflexivity]|].
  unfold mean_where in E. cbn [filter asked nth map rsum length INR] in E. unfold asked in E. cbn [nth filter map rsum length INR] in E. rewrite !two_probs in E by lia. cbn [nth] in E.
  replace ((1 / 4 + 0) / 1) with (1 / 4 / 1) in E by lra. exact E.
Qed.
Print Assumptions C129_groups_refuted.
(** The hypotheses hold, with and without a key. *)
Example C129_nonvacuous : let probs := map two_people two_thetas in let pattern := [[true]; [true]] in
  rect 2 1 probs /\ rect 2 1 pattern /\ answers_as 2 [2%nat] probs /\ usable_key 2 1 None /\ usable_key 2 1 (Some [1%Z]) /\
  (forall n, (n < 2)%nat -> asked pattern n 0 = true /\ cell_spread None probs n 0 = 3 / 16 /\ cell_spread (Some [1%Z]) probs n 0 = 3 / 16) /\
  length (possible_data [2%nat] pattern) = 4%nat /\
  expected [2%nat] pattern probs (fun data => infit_entry (infit_outfit 2 None probs (Wide 1 data) (Some LItem)) 0) 1 /\
  expected [2%nat] pattern probs (fun data => vec_entry (fst (residuals 2 (Some [1%Z]) probs (Wide 1 data) AvRespondents)) 0) (3 / 8) /\
  (forall train, expected [2%nat] pattern probs (fun data => option_map (fun x => x * x) (group_entry (group_fit_residuals two_people 1 [2%nat] None two_thetas train (Some data) 1 1 true) 0 0 1)) (3 / 4)).
Proof.
  intros probs pattern. assert (HQ : rect 2 1 pattern) by (split; [reflexivity|]; repeat (apply Forall_cons; [reflexivity|]); apply Forall_nil).
  assert (K1 : usable_key 2 1 None) by (intros key H; discriminate).
  assert (K2 : usable_key 2 1 (Some [1%Z])) by (intros key H; injection H as <-; cbn; repeat split; try lia; intros z [<-|[]]; lia).
  assert (SP : forall n, (n < 2)%nat -> asked pattern n 0 = true /\ cell_spread None probs n 0 = 3 / 16 /\ cell_spread (Some [1%Z]) probs n 0 = 3 / 16).
  { intros n Hn. split; [destruct n as [|[|n]]; [reflexivity|reflexivity|lia]|]. unfold cell_spread. rewrite (probs_cell [2%nat] pattern probs two_rect n 0 Hn) by (cbn; lia). unfold probs. rewrite two_probs by exact Hn.
    unfold score_spread, average_score, score_of. destruct n as [|[|n]]; [| |lia]; cbn [length sumn nth INR Z.eqb Z.of_nat]; cbn; split; lra. }
  split; [exact two_rect|]. split; [exact HQ|]. split; [exact two_answers|]. split; [exact K1|]. split; [exact K2|]. split; [exact SP|]. split; [reflexivity|]. split; [|split].
  - destruct (C129_infit_outfit 2 [2%nat] pattern probs None ltac:(lia) two_rect HQ two_answers K1) as [H _]. apply (H 0%nat ltac:(cbn; lia)); [exists 0%nat; cbn; split; [lia|reflexivity]|].
    intros n Hn _. destruct (SP n Hn) as (_ & -> & _). lra.
  - destruct (C129_residuals 2 [2%nat] pattern probs (Some [1%Z]) ltac:(lia) two_rect HQ two_answers) as [H _]. specialize (H 0%nat ltac:(cbn; lia) ltac:(exists 0%nat; cbn; split; [lia|reflexivity])).
    rewrite mean_where_all in H by (intros n Hn; apply in_seq in Hn; now apply SP). cbn [length pattern everyone seq map rsum INR] in H. unfold usual_residual, agreement, probs in H. rewrite !two_probs in H by lia.
    cbn [length sumn nth] in H. replace (3 / 8) with ((1 - (0 + (1 - 1 / 4) * (1 - 1 / 4) + 1 / 4 * (1 / 4)) + (1 - (0 + (1 - 3 / 4) * (1 - 3 / 4) + 3 / 4 * (3 / 4)) + 0)) / (1 + 1)) by lra. exact H.
  - intros train. destruct (C129_standardized 2 two_people 1 [2%nat] None two_thetas train pattern 1 0 eq_refl eq_refl ltac:(cbn; lia) ltac:(lia) ltac:(lia) two_rect HQ two_answers) as (order & gs & O & C & V).
    apply two_orders in O. subst order. apply two_groups in C. specialize (V 0%nat [0; 1]%nat 0%nat 1%nat C ltac:(cbn; lia) ltac:(cbn; lia)).
    specialize (V ltac:(intros n [<-|[<-|[]]]; reflexivity)). cbn zeta in V. cbn [map rsum length INR] in V. fold probs in V. unfold probs in V. rewrite !two_probs in V by lia. cbn [nth] in V.
    destruct V as (_ & V & _); [lra|]. match type of V with expected _ _ _ _ ?w => replace w with (3 / 4) in V by (field; lra) end. exact V.
Qed.
