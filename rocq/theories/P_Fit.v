(** Averages over answers of statistics of single cells. *)
From Verif Require Import Base BaseFacts RBase RFacts M_Data M_Logit M_Lik M_Est M_Eval S_Logit S_Lik S_Est S_Item S_True S_Eval S_Fit P_Logit P_Logit2 P_Logit3 P_Est1 P_Est2 P_Opt3 P_Max1 P_True1 P_Eval1.
Import List.
Local Open Scope R_scope.

Definition pick (row : list cell) (i : nat) : nat := match nth i row None with Some z => Z.to_nat z | None => O end.
Lemma over_scal_r {A} (l : list A) c f : over l (fun x => f x * c) = over l f * c.
Proof. rewrite (over_ext _ _ (fun x => c * f x)) by (intros; ring). rewrite over_scal. ring. Qed.

Lemma row_marginal cats : forall seen f i (g : nat -> R), length seen = length cats -> (i < length cats)%nat -> nth i seen false = true ->
  (forall i, (i < length cats)%nat -> sumn (nth i cats O) (f i) = 1) ->
  over (possible_rows cats seen) (fun row => row_product f row * g (pick row i)) = sumn (nth i cats O) (fun k => f i k * g k).
Proof.
  induction cats as [|K cats IH]; intros seen f i g L Hi Hb HF; [cbn in Hi; lia|]. destruct seen as [|b seen]; [discriminate|]. cbn [length] in *.
  assert (L' : length seen = length cats) by lia.
  assert (T : over (possible_rows cats seen) (row_product (fun i => f (S i))) = 1).
  { apply rows_total; [exact L'|]. intros j Hj. apply (HF (S j)). lia. }
  destruct i as [|i].
  - cbn [nth] in Hb. subst b. cbn [possible_rows nth]. rewrite over_flat, over_seq. apply sumn_ext. intros k _. rewrite over_map.
    rewrite (over_ext _ _ (fun row => (f 0%nat k * g k) * row_product (fun i => f (S i)) row)).
    + rewrite over_scal, T. ring.
    + intros row _. rewrite row_product_cons, answer_of_nat. unfold pick. cbn [nth]. rewrite Nat2Z.id. ring.
  - cbn [nth] in Hb |- *. assert (R := IH seen (fun i => f (S i)) i g L' ltac:(lia) Hb (fun j Hj => HF (S j) ltac:(lia))). cbn beta in R.
    cbn [possible_rows]. destruct b.
    + rewrite over_flat, over_seq. rewrite (sumn_ext K _ (fun k => f 0%nat k * sumn (nth i cats O) (fun k => f (S i) k * g k))).
      * rewrite sumn_scal_r. pose proof (HF 0%nat ltac:(lia)) as H0. cbn [nth] in H0. rewrite H0. ring.
      * intros k _. rewrite over_map, <- R, <- over_scal. apply over_ext. intros row _. rewrite row_product_cons, answer_of_nat. unfold pick. cbn [nth]. ring.
    + rewrite over_map, <- R. apply over_ext. intros row _. rewrite row_product_cons. unfold pick. cbn [nth answer]. ring.
Qed.
Lemma rsum_mapi_single (h : list cell -> R) n : forall (data : list (list cell)), (n < length data)%nat ->
  rsum (mapi (fun r row => if (r =? n)%nat then h row else 0) data) = h (nth n data []).
Proof.
  assert (Z : forall (data : list (list cell)) (f : nat -> list cell -> R), (forall r x, f r x = 0) -> rsum (mapi f data) = 0).
  { induction data as [|x data IH]; intros f Hf; [reflexivity|]. rewrite mapi_cons. cbn [rsum]. rewrite Hf, IH; [ring|]. intros; apply Hf. }
  revert n. induction n as [|n IH]; intros [|x data] H; cbn [length] in H; try lia; rewrite mapi_cons; cbn [rsum nth Nat.eqb].
  - rewrite Z by reflexivity. ring.
  - rewrite IH by lia. ring.
Qed.
Lemma rows_cell cats : forall seen row i, length seen = length cats -> In row (possible_rows cats seen) -> (i < length cats)%nat ->
  length row = length cats /\ nth_error row i = Some (if nth i seen false then Some (Z.of_nat (pick row i)) else None) /\ (nth i seen false = true -> (pick row i < nth i cats O)%nat).
Proof.
  induction cats as [|K cats IH]; intros seen row i L H Hi; [cbn in Hi; lia|]. destruct seen as [|b seen]; [discriminate|]. cbn [length possible_rows] in *.
  assert (L0 : forall cats' seen' row', length seen' = length cats' -> In row' (possible_rows cats' seen') -> length row' = length cats').
  { clear. induction cats' as [|K cats' IH]; intros [|b seen'] row' L H; try discriminate; cbn [possible_rows] in H; [destruct H as [<-|[]]; reflexivity|]. cbn [length] in *. destruct b.
    - apply in_flat_map in H as (k & _ & H). apply in_map_iff in H as (r & <- & H). cbn [length]. f_equal. apply (IH seen'); [lia|exact H].
    - apply in_map_iff in H as (r & <- & H). cbn [length]. f_equal. apply (IH seen'); [lia|exact H]. }
  destruct b.
  - apply in_flat_map in H as (k & Hk & H). apply in_map_iff in H as (r & <- & H). split; [cbn [length]; f_equal; apply (L0 cats seen); [lia|exact H]|].
    apply in_seq in Hk. destruct i as [|i]; cbn [nth nth_error].
    + unfold pick. cbn [nth]. rewrite Nat2Z.id. split; [reflexivity|]. intros _. lia.
    + destruct (IH seen r i ltac:(lia) H ltac:(lia)) as (_ & R). exact R.
  - apply in_map_iff in H as (r & <- & H). split; [cbn [length]; f_equal; apply (L0 cats seen); [lia|exact H]|].
    destruct i as [|i]; cbn [nth nth_error]; [split; [reflexivity|discriminate]|]. destruct (IH seen r i ltac:(lia) H ltac:(lia)) as (_ & R). exact R.
Qed.

Section Fit.
  Variables (M : nat) (cats : list nat) (pattern : list (list bool)) (probs : list (list (list R))).
  Let I := length cats.
  Let N := length pattern.
  Hypotheses (HP : rect N I probs) (HQ : rect N I pattern) (HA : answers_as M cats probs).

  Lemma probs_cell n i : (n < N)%nat -> (i < I)%nat -> at2 probs n i = Some (probs_at probs n i).
  Proof.
    intros Hn Hi. destruct HP as [P1 P2]. unfold at2, probs_at. rewrite (nth_error_nth_lt probs n []) by lia. apply nth_error_nth_lt.
    rewrite Forall_forall in P2. rewrite P2 by (apply nth_In; lia). exact Hi.
  Qed.
  Lemma probs_total n i : (n < N)%nat -> (i < I)%nat -> sumn (nth i cats O) (fun k => nth k (probs_at probs n i) 0) = 1.
  Proof.
    intros Hn Hi. destruct (HA n i _ (probs_cell n i Hn Hi)) as (L & K & _ & Z & S). rewrite <- S, rsum_nth, L. symmetry. apply sumn_truncate; [exact K|]. intros k Hk. apply Z. lia.
  Qed.
  Lemma probs_upto n i (f : nat -> R) : (n < N)%nat -> (i < I)%nat ->
    sumn (nth i cats O) (fun k => nth k (probs_at probs n i) 0 * f k) = sumn (length (probs_at probs n i)) (fun k => nth k (probs_at probs n i) 0 * f k).
  Proof.
    intros Hn Hi. destruct (HA n i _ (probs_cell n i Hn Hi)) as (L & K & _ & Z & _). rewrite L. symmetry. apply sumn_truncate; [exact K|]. intros k Hk. rewrite Z by lia. ring.
  Qed.
  Lemma pattern_row n : (n < N)%nat -> length (nth n pattern []) = I.
  Proof. intros Hn. destruct HQ as [_ Q]. rewrite Forall_forall in Q. apply Q. apply nth_In. exact Hn. Qed.
  Lemma answering_total n : (n < N)%nat -> over (possible_rows cats (nth n pattern [])) (answering probs n) = 1.
  Proof.
    intros Hn. exact (rows_total cats (nth n pattern []) (fun i k => nth k (probs_at probs n i) 0) (pattern_row n Hn) (fun i Hi => probs_total n i Hn Hi)).
  Qed.
  Lemma average_over f : on_average cats pattern probs f = over (possible_data cats pattern) (fun data => table_probability (answering probs) data * f data).
  Proof. reflexivity. Qed.
  Lemma average_ext f g : (forall data, In data (possible_data cats pattern) -> f data = g data) -> on_average cats pattern probs f = on_average cats pattern probs g.
  Proof. intros H. rewrite !average_over. apply over_ext. intros data Hd. now rewrite H. Qed.
  Lemma average_const c : on_average cats pattern probs (fun _ => c) = c.
  Proof.
    rewrite average_over, over_scal_r. destruct (average_additive cats pattern (answering probs) (fun _ _ => 0) (fun r Hr => answering_total r Hr)) as [A _].
    rewrite A. ring.
  Qed.
  Lemma average_plus f g : on_average cats pattern probs (fun d => f d + g d) = on_average cats pattern probs f + on_average cats pattern probs g.
  Proof. rewrite !average_over, <- over_plus. apply over_ext. intros; ring. Qed.
  Lemma average_scal c f : on_average cats pattern probs (fun d => f d * c) = on_average cats pattern probs f * c.
  Proof. rewrite !average_over, <- over_scal_r. apply over_ext. intros; ring. Qed.
  Lemma average_sum {A} (l : list A) (h : A -> list (list cell) -> R) :
    on_average cats pattern probs (fun d => rsum (map (fun x => h x d) l)) = rsum (map (fun x => on_average cats pattern probs (h x)) l).
  Proof. induction l as [|x l IH]; cbn [map rsum]; [apply average_const|]. now rewrite average_plus, IH. Qed.
  (** The average of a statistic of one cell. *)
  Lemma cell_average n i g : (n < N)%nat -> (i < I)%nat -> asked pattern n i = true ->
    on_average cats pattern probs (fun d => g (pick (nth n d []) i)) = sumn (length (probs_at probs n i)) (fun k => nth k (probs_at probs n i) 0 * g k).
  Proof.
    intros Hn Hi Hs. rewrite average_over.
    destruct (average_additive cats pattern (answering probs) (fun r row => if (r =? n)%nat then g (pick row i) else 0) (fun r Hr => answering_total r Hr)) as [_ A].
    rewrite (over_ext _ _ (fun d => table_probability (answering probs) d * rsum (mapi (fun r row => if (r =? n)%nat then g (pick row i) else 0) d))).
    - rewrite A. rewrite (sumn_single _ n); [|exact Hn|].
      + rewrite Nat.eqb_refl, <- probs_upto by assumption.
        exact (row_marginal cats (nth n pattern []) (fun i k => nth k (probs_at probs n i) 0) i g (pattern_row n Hn) Hi Hs (fun i Hi => probs_total n i Hn Hi)).
      + intros r Hr Hrn. apply Nat.eqb_neq in Hrn. rewrite Hrn. rewrite (over_ext _ _ (fun _ => 0 * 0)) by (intros; ring). rewrite over_scal. ring.
    - intros d Hd. f_equal. destruct (tables_in cats pattern d Hd) as [L _]. symmetry. apply (rsum_mapi_single (fun row => g (pick row i))). rewrite L. exact Hn.
  Qed.
  (** What the tables look like. *)
  Lemma table_cell d n i : In d (possible_data cats pattern) -> (n < N)%nat -> (i < I)%nat ->
    at2 d n i = Some (if asked pattern n i then Some (Z.of_nat (pick (nth n d []) i)) else None) /\ (asked pattern n i = true -> (pick (nth n d []) i < nth i cats O)%nat).
  Proof.
    intros Hd Hn Hi. destruct (tables_in cats pattern d Hd) as [L R]. destruct (rows_cell cats _ _ i (pattern_row n Hn) (R n Hn) Hi) as (_ & C & D).
    split; [|exact D]. unfold at2. rewrite (nth_error_nth_lt d n []) by (rewrite L; exact Hn). exact C.
  Qed.
  Lemma table_rect d : In d (possible_data cats pattern) -> (0 < I)%nat -> rect N I d.
  Proof.
    intros Hd HI. destruct (tables_in cats pattern d Hd) as [L R]. split; [exact L|]. apply Forall_forall. intros row Hr. apply (In_nth _ _ []) in Hr as (n & Hn & <-).
    rewrite L in Hn. destruct (rows_cell cats _ _ O (pattern_row n Hn) (R n Hn) HI) as (A & _). exact A.
  Qed.
  Lemma table_seen d n i : In d (possible_data cats pattern) -> (n < N)%nat -> (i < I)%nat -> seen d n i = asked pattern n i.
  Proof.
    intros Hd Hn Hi. unfold seen. destruct (table_cell d n i Hd Hn Hi) as [-> _]. destruct (asked pattern n i); [|reflexivity]. destruct (Z.eqb_spec (Z.of_nat (pick (nth n d []) i)) (-1)); [lia|reflexivity].
  Qed.
  Lemma table_outside d n i : In d (possible_data cats pattern) -> (0 < I)%nat -> seen d n i = true -> (n < N)%nat /\ (i < I)%nat.
  Proof.
    intros Hd HI. destruct (table_rect d Hd HI) as [L R]. unfold seen, at2. destruct (nth_error d n) as [row|] eqn:E; [|discriminate].
    assert (Hn : (n < length d)%nat) by (apply nth_error_Some; congruence). rewrite Forall_forall in R. pose proof (R row (nth_error_In _ _ E)) as Lr.
    destruct (nth_error row i) eqn:E'; [|discriminate]. assert (Hi : (i < length row)%nat) by (apply nth_error_Some; congruence). lia.
  Qed.
  Lemma table_chose d n i k : In d (possible_data cats pattern) -> (n < N)%nat -> (i < I)%nat -> asked pattern n i = true -> chose d n i k = (pick (nth n d []) i =? k)%nat.
  Proof.
    intros Hd Hn Hi Ha. unfold chose. destruct (table_cell d n i Hd Hn Hi) as [-> _]. rewrite Ha.
    destruct (Z.eqb_spec (Z.of_nat (pick (nth n d []) i)) (Z.of_nat k)), (Nat.eqb_spec (pick (nth n d []) i) k); lia || reflexivity.
  Qed.
  Lemma table_unchosen d n i k : In d (possible_data cats pattern) -> (n < N)%nat -> (i < I)%nat -> asked pattern n i = false -> chose d n i k = false.
  Proof. intros Hd Hn Hi Ha. unfold chose. destruct (table_cell d n i Hd Hn Hi) as [-> _]. now rewrite Ha. Qed.
  Lemma filter_seen {A} d (l : list A) (fn fi : A -> nat) : In d (possible_data cats pattern) -> (forall x, In x l -> (fn x < N)%nat /\ (fi x < I)%nat) ->
    filter (fun x => seen d (fn x) (fi x)) l = filter (fun x => asked pattern (fn x) (fi x)) l.
  Proof. intros Hd H. apply filter_ext_in. intros x Hx. destruct (H x Hx). now apply table_seen. Qed.
  (** Expected squared residual of a cell. *)
  Lemma error_average mc n i : (n < N)%nat -> (i < I)%nat -> asked pattern n i = true ->
    on_average cats pattern probs (fun d => cell_error mc d probs n i) = cell_spread mc probs n i.
  Proof.
    intros Hn Hi Ha. rewrite (average_ext _ (fun d => (fun k => (score_of mc i k - average_score (score_of mc i) (probs_at probs n i)) ^ 2) (pick (nth n d []) i))).
    - rewrite (cell_average n i (fun k => (score_of mc i k - average_score (score_of mc i) (probs_at probs n i)) ^ 2)) by assumption. unfold cell_spread. rewrite probs_cell by assumption. reflexivity.
    - intros d Hd. unfold cell_error. destruct (table_cell d n i Hd Hn Hi) as [-> _]. rewrite Ha, probs_cell by assumption. now rewrite Nat2Z.id.
  Qed.
  Lemma average_ratio {A} (l : list A) (h : A -> list (list cell) -> R) (v : A -> R) c : (forall x, In x l -> on_average cats pattern probs (h x) = v x) ->
    on_average cats pattern probs (fun d => rsum (map (fun x => h x d) l) / c) = rsum (map v l) / c.
  Proof. intros H. unfold Rdiv. rewrite average_scal, average_sum. f_equal. f_equal. apply map_ext_in. exact H. Qed.
End Fit.
