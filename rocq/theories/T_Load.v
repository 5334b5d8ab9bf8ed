(** C99: the bundled and downloaded datasets. *)
From Coq Require Import String Ascii.
From Verif Require Import Base BaseFacts RBase RFacts M_Data M_Load.
Import List.
Local Open Scope R_scope.

(** ** Keys *)
Definition is_digit (a : ascii) : bool := ((48 <=? nat_of_ascii a) && (nat_of_ascii a <=? 57))%nat.
(** The key lists the digits of the text in order, each less one; line breaks and other characters are ignored.
    So the key of a text of digits 1 to 9 consists of numbers 0 to 8. *)
Theorem C99_key : forall s, parse_key s = map (fun a => (Z.of_nat (nat_of_ascii a) - 49)%Z) (filter is_digit (list_ascii_of_string s)).
Proof.
  intros s. unfold parse_key. induction s as [|a s IH]; [reflexivity|]. cbn [digits list_ascii_of_string filter]. unfold digit, is_digit.
  destruct (Z.leb_spec 48 (Z.of_nat (nat_of_ascii a))) as [H1|H1]; destruct (Nat.leb_spec 48 (nat_of_ascii a)) as [H1'|H1']; try lia; cbn [andb]; [|exact IH].
  destruct (Z.leb_spec (Z.of_nat (nat_of_ascii a)) 57) as [H2|H2]; destruct (Nat.leb_spec (nat_of_ascii a) 57) as [H2'|H2']; try lia; [|exact IH].
  cbn [map]. rewrite IH. f_equal. lia.
Qed.
Print Assumptions C99_key.
Example C99_key_nonvacuous : parse_key (String "1"%char (String "5"%char (String "010"%char "3x"%string))) = [0; 4; 2]%Z.
Proof. reflexivity. Qed.

(** ** Swedish SAT *)
(** The quantitative items come first, the verbal ones after them, and the keys are in the same order: when each
    key has as many entries as its part has items, the key entry at the position of an item is that item's. *)
Theorem C99_sat : forall q v kq kv nq nv, Forall (fun r => length r = nq) q -> Forall (fun r => length r = nv) v -> length (parse_key kq) = nq -> length (parse_key kv) = nv ->
  (length q <> length v -> swedish_sat (q, kq) (v, kv) = Err RuntimeError) /\
  (length q = length v -> exists data key, swedish_sat (q, kq) (v, kv) = Ok (data, key) /\ length data = length q /\ length key = (nq + nv)%nat /\
     forall r, (r < length q)%nat -> length (nth r data []) = (nq + nv)%nat /\
       (forall j, (j < nq)%nat -> nth_error (nth r data []) j = nth_error (nth r q []) j /\ nth_error key j = nth_error (parse_key kq) j) /\
       (forall j, (j < nv)%nat -> nth_error (nth r data []) (nq + j) = nth_error (nth r v []) j /\ nth_error key (nq + j) = nth_error (parse_key kv) j)).
Proof.
  intros q v kq kv nq nv Fq Fv Lq Lv. unfold swedish_sat. cbn [fst snd]. split.
  - intros H. destruct (Nat.eqb_spec (length q) (length v)); [congruence|reflexivity].
  - intros H. rewrite (proj2 (Nat.eqb_eq _ _) H). cbn [negb]. eexists _, _. split; [reflexivity|]. split; [rewrite zip_with_length; lia|]. split; [rewrite app_length; lia|].
    intros r Hr. pose proof (proj1 (Forall_nth _ _) Fq r [] Hr) as E1. pose proof (proj1 (Forall_nth _ _) Fv r [] ltac:(lia)) as E2.
    assert (E : nth r (zip_with (fun a b => a ++ b) q v) [] = nth r q [] ++ nth r v []).
    { apply nth_error_nth. rewrite nth_error_zip_with, (nth_error_nth_lt q r []), (nth_error_nth_lt v r []) by lia. reflexivity. }
    cbn beta in E1, E2. rewrite E. split; [rewrite app_length; lia|]. split; intros j Hj.
    + rewrite !nth_error_app1 by lia. split; reflexivity.
    + rewrite !nth_error_app2 by lia. rewrite E1, Lq. replace (nq + j - nq)%nat with j by lia. split; reflexivity.
Qed.
Print Assumptions C99_sat.

(** The binary data has a one exactly where the answer equals the key entry, a zero elsewhere; in particular an
    unanswered item counts as incorrect. *)
Theorem C99_binary : forall q v kq kv data key, swedish_sat (q, kq) (v, kv) = Ok (data, key) -> Forall (fun r => length r = length key) data ->
  exists b, swedish_sat_binary (q, kq) (v, kv) = Ok b /\ length b = length data /\
    forall r j, (r < length data)%nat -> (j < length key)%nat ->
      at2 b r j = Some (match nth j (nth r data []) None with Some z => if Z.eq_dec z (nth j key 0%Z) then 1 else 0 | None => 0 end).
Proof.
  intros q v kq kv data key E HF. unfold swedish_sat_binary. rewrite E. cbn [bind fst snd].
  rewrite (mapM_total _ (fun row => zip_with same_answer row key)).
  - eexists. split; [reflexivity|]. split; [apply map_length|]. intros r j Hr Hj. unfold at2. rewrite nth_error_map, (nth_error_nth_lt data r [] Hr). cbn [option_map].
    pose proof (proj1 (Forall_nth _ _) HF r [] Hr) as L. cbn beta in L. rewrite nth_error_zip_with, (nth_error_nth_lt _ j None), (nth_error_nth_lt key j 0%Z) by lia. unfold same_answer.
    destruct (nth j (nth r data []) None) as [z|]; [|reflexivity]. destruct (Z.eqb_spec z (nth j key 0%Z)); destruct (Z.eq_dec z (nth j key 0%Z)); congruence || reflexivity.
  - intros row Hr. unfold score_row. rewrite Forall_forall in HF. now rewrite (HF row Hr), Nat.eqb_refl.
Qed.
Print Assumptions C99_binary.
Example C99_binary_nonvacuous : swedish_sat_binary ([[Some 0%Z; None]], "12"%string) ([[Some 2%Z]], "3"%string) = Ok [[1; 0; 1]].
Proof. reflexivity. Qed.

(** The documentation says that the returned correct responses start from one, a 1 standing for the response 0.
    They start from zero: a response coded by that rule (one less than the key entry) is incorrect in the binary
    data, whatever the data. *)
Theorem C99_documented_key_refuted : forall q v kq kv data key, swedish_sat (q, kq) (v, kv) = Ok (data, key) -> Forall (fun r => length r = length key) data ->
  forall b r j, swedish_sat_binary (q, kq) (v, kv) = Ok b -> (r < length data)%nat -> (j < length key)%nat ->
    nth j (nth r data []) None = Some (nth j key 0 - 1)%Z -> at2 b r j = Some 0.
Proof.
  intros q v kq kv data key E HF b r j Eb Hr Hj Ed. destruct (C99_binary q v kq kv data key E HF) as (b' & E' & _ & H). assert (b' = b) by congruence. subst b'.
  rewrite (H r j Hr Hj), Ed. destruct (Z.eq_dec (nth j key 0 - 1)%Z (nth j key 0%Z)); [lia|reflexivity].
Qed.
Print Assumptions C99_documented_key_refuted.
Example C99_documented_key_refuted_nonvacuous : exists data key b, swedish_sat ([[Some 0%Z]], "2"%string) ([[Some 2%Z]], "3"%string) = Ok (data, key) /\ Forall (fun r => length r = length key) data /\
  swedish_sat_binary ([[Some 0%Z]], "2"%string) ([[Some 2%Z]], "3"%string) = Ok b /\ nth 0 (nth 0 data []) None = Some (nth 0 key 0 - 1)%Z.
Proof. eexists _, _, _. split; [reflexivity|]. split; [repeat constructor|]. split; reflexivity. Qed.

(** ** Big five *)
Definition answer_sum (l : list (option R)) : R := rsum (map (fun c => match c with Some x => x | None => 0 end) l).
(** Who is kept: one submission from the address, no recorded response time below 0 or above five minutes, no
    missing answer cell, and answers that are not all zero (their sum is positive). *)
Definition eligible (p : person) : Prop :=
  ipc p = Some 1 /\ (forall t, In (Some t) (times p) -> 0 <= t <= 300000) /\ ~ In None (answers p) /\ 0 < answer_sum (answers p).
(** How an answer is coded: 0 is missing, the answers 1, 2, ... become 0, 1, ...; a reversed item counts from
    the other end of the five-point scale. *)
Definition coded (reversed : bool) (c : option R) : option R :=
  match c with
  | Some x => if Req_EM_T x 0 then None else Some (if reversed then 5 - x else x - 1)
  | None => None
  end.
(** The reverse-keyed questions of the inventory: trait and number of the question. *)
Definition reverse_keyed : list (string * list string) :=
  [("EXT", ["2"; "4"; "6"; "8"; "10"]); ("AGR", ["1"; "3"; "5"; "7"]); ("CSN", ["2"; "4"; "6"; "8"]); ("EST", ["2"; "4"]); ("OPN", ["2"; "4"; "6"])]%string.
Definition is_reversed (n : string) : bool := existsb (String.eqb n) (flat_map (fun '(trait, l) => map (fun k => (trait ++ k)%string) l) reverse_keyed).
Lemma is_reversed_eq n : named_in reverse_items n = is_reversed n.
Proof.
  unfold named_in, is_reversed. assert (E : reverse_items = flat_map (fun '(trait, l) => map (fun k => (trait ++ k)%string) l) reverse_keyed) by (vm_compute; reflexivity). now rewrite <- E.
Qed.
Lemma is_reversed_In n : In n reverse_items <-> is_reversed n = true.
Proof.
  rewrite <- is_reversed_eq. unfold named_in. rewrite existsb_exists. split; [intros H; exists n; split; [exact H|apply String.eqb_refl]|]. intros (x & Hx & E). apply String.eqb_eq in E. now subst.
Qed.

Lemma ctrue_0 {A} (f : A -> bool) l : ctrue (map f l) = O <-> forall x, In x l -> f x = false.
Proof.
  unfold ctrue. induction l as [|a l IH]; [split; [intros _ x []|reflexivity]|]. cbn [map filter]. destruct (f a) eqn:E.
  - split; [discriminate|]. intros H. specialize (H a (or_introl eq_refl)). congruence.
  - rewrite IH. split; [intros H x [<-|Hx]; auto|intros H x Hx; apply H; now right].
Qed.
Lemma keep_times_iff p : keep_times p = true <-> forall t, In (Some t) (times p) -> 0 <= t <= 300000.
Proof.
  unfold keep_times. cbv zeta. rewrite andb_true_iff, !Nat.eqb_eq, !map_map, !ctrue_0. split.
  - intros [H1 H2] t Ht. specialize (H1 _ Ht). specialize (H2 _ Ht). cbn in H1, H2. destruct (Rlt_dec (t / 1000) 0); [discriminate|]. destruct (Rlt_dec 300 (t / 1000)); [discriminate|]. lra.
  - intros H. split; intros [t|] Ht; cbn; try reflexivity; specialize (H t Ht).
    + destruct (Rlt_dec (t / 1000) 0); [lra|reflexivity].
    + destruct (Rlt_dec 300 (t / 1000)); [lra|reflexivity].
Qed.
Lemma complete_iff row : complete row = true <-> ~ In None row.
Proof.
  unfold complete. rewrite forallb_forall. split; [intros H Hn; specialize (H None Hn); discriminate|]. intros H [x|] Hx; [reflexivity|contradiction].
Qed.
Lemma keep_ipc_iff p : keep_ipc p = true <-> ipc p = Some 1.
Proof. unfold keep_ipc. destruct (ipc p) as [x|]; [destruct (Req_EM_T x 1) as [->|]|]; split; congruence. Qed.
Lemma filter_filter {A} (f g : A -> bool) l : filter f (filter g l) = filter (fun x => g x && f x) l.
Proof. induction l as [|a l IH]; [reflexivity|]. cbn [filter]. destruct (g a); cbn [andb filter]; [destruct (f a); now rewrite IH|exact IH]. Qed.
Lemma filter_map {A B} (f : B -> bool) (g : A -> B) l : filter f (map g l) = map g (filter (fun x => f (g x)) l).
Proof. induction l as [|a l IH]; [reflexivity|]. cbn [map filter]. destruct (f (g a)); cbn [map]; now rewrite IH. Qed.
Lemma coded_value n c : option_map (fun x => x - 1) (if named_in reverse_items n then reverse_value (zero_to_nan c) else zero_to_nan c) = coded (named_in reverse_items n) c.
Proof.
  unfold zero_to_nan, coded. destruct c as [x|]; [|destruct (named_in reverse_items n); reflexivity]. destruct (Req_EM_T x 0) as [E|E]; [destruct (named_in reverse_items n); reflexivity|].
  destruct (named_in reverse_items n); [|reflexivity]. cbn [reverse_value option_map]. cbv zeta. destruct (Req_EM_T ((1 - x / 5) * 5 + 1) 6) as [H|_]; [exfalso; apply E; lra|]. f_equal. lra.
Qed.

(** The rows are those of the eligible persons, in the order of the file, answer by answer coded by the name of
    the column; a file in which one of the eighteen reversed columns is missing is refused. *)
Theorem C99_big_five : forall names file, Forall (fun p => length (answers p) = length names) file ->
  ((forall n, is_reversed n = true -> In n names) ->
   exists kept, (forall p, kept p = true <-> eligible p) /\
     big_five_rows names file = Ok (map (fun p => zip_with (fun n c => coded (is_reversed n) c) names (answers p)) (filter kept file))) /\
  ((exists n, is_reversed n = true /\ ~ In n names) -> big_five_rows names file = Err KeyError).
Proof.
  intros names file HF. unfold big_five_rows. cbv zeta. split.
  - intros HN. assert (E : forallb (named_in names) reverse_items = true).
    { apply forallb_forall. intros n Hn. unfold named_in. apply existsb_exists. exists n. split; [apply HN; now apply is_reversed_In|apply String.eqb_refl]. }
    rewrite E. clear E HN. rewrite filter_filter, filter_map, filter_filter, filter_filter, !map_map.
    eexists. split; [|f_equal; apply map_ext_in; intros p Hp; apply filter_In in Hp; destruct Hp as [Hp _]; rewrite Forall_forall in HF; specialize (HF p Hp); unfold reverse_row;
      apply nth_error_ext; intro j; rewrite nth_error_map, !nth_error_zip_with, nth_error_map; destruct (nth_error names j) as [n|]; [|reflexivity]; destruct (nth_error (answers p) j) as [c|]; [|reflexivity];
      cbn [option_map]; f_equal; rewrite coded_value; now rewrite is_reversed_eq].
    intros p. cbn beta. unfold eligible. change (answer_sum (answers p)) with (row_sum (answers p)). rewrite !andb_true_iff. pose proof (keep_ipc_iff p) as K1. pose proof (keep_times_iff p) as K2. pose proof (complete_iff (answers p)) as K3.
    destruct (Rlt_dec 0 (row_sum (answers p))) as [H|H]; [tauto|]. split; [intros X; exfalso; intuition discriminate|tauto].
  - intros (n & Hn & Hnn). assert (E : forallb (named_in names) reverse_items = false).
    { apply not_true_is_false. intros H. rewrite forallb_forall in H. specialize (H n (proj2 (is_reversed_In n) Hn)). unfold named_in in H. apply existsb_exists in H. destruct H as (x & Hx & Ex). apply String.eqb_eq in Ex. congruence. }
    rewrite E. reflexivity.
Qed.
Print Assumptions C99_big_five.

(** A file of answers 0 to 5 gives data with categories 0 to 4 and missing values, and nobody with missing
    values only. *)
Definition five_point (c : option R) : Prop := c = None \/ exists k, (k <= 5)%nat /\ c = Some (INR k).
Theorem C99_big_five_range : forall names file rows, Forall (fun p => length (answers p) = length names /\ Forall five_point (answers p)) file ->
  big_five_rows names file = Ok rows ->
  forall row, In row rows -> length row = length names /\ (forall c, In c row -> c = None \/ exists k, (k <= 4)%nat /\ c = Some (INR k)) /\ exists k, (k <= 4)%nat /\ In (Some (INR k)) row.
Proof.
  intros names file rows HF E row Hrow.
  assert (HL : Forall (fun p => length (answers p) = length names) file) by (eapply Forall_impl; [|exact HF]; intros ? [? ?]; assumption).
  destruct (C99_big_five names file HL) as [H1 H2].
  assert (HN : forall n, is_reversed n = true -> In n names).
  { intros n Hn. destruct (in_dec String.string_dec n names) as [H|H]; [exact H|]. rewrite (H2 (ex_intro _ n (conj Hn H))) in E. discriminate. }
  destruct (H1 HN) as (kept & Hp & E'). rewrite E' in E. injection E as <-. apply in_map_iff in Hrow. destruct Hrow as (p & <- & Hin).
  assert (HE : In p file /\ eligible p) by (apply filter_In in Hin; destruct Hin as [H3 H4]; split; [exact H3|now apply Hp]).
  destruct HE as [Hf (_ & _ & HC & HS)]. rewrite Forall_forall in HF. destruct (HF p Hf) as [Lp Fp]. clear - Lp Fp HC HS.
  assert (C : forall b c, five_point c -> coded b c = None \/ exists k, (k <= 4)%nat /\ coded b c = Some (INR k)).
  { intros b c [->|(k & Hk & ->)]; [now left|]. unfold coded. destruct (Req_EM_T (INR k) 0) as [E|E]; [now left|]. right. destruct k as [|k]; [exfalso; apply E; reflexivity|]. destruct b.
    - exists (4 - k)%nat. split; [lia|]. f_equal. rewrite minus_INR, S_INR by lia. cbn. lra.
    - exists k. split; [lia|]. f_equal. rewrite S_INR. lra. }
  split; [rewrite zip_with_length; lia|]. split.
  - intros c Hc. apply In_nth_error in Hc. destruct Hc as (j & Hj). rewrite nth_error_zip_with in Hj. destruct (nth_error names j) as [n|]; [|discriminate]. destruct (nth_error (answers p) j) as [a|] eqn:Ea; [|discriminate].
    injection Hj as <-. apply C. rewrite Forall_forall in Fp. apply Fp. eapply nth_error_In; eauto.
  - assert (X : exists j x, nth_error (answers p) j = Some (Some x) /\ x <> 0).
    { clear - HS HC. unfold answer_sum in HS. induction (answers p) as [|[x|] l IH]; cbn [map rsum] in HS; [lra| |exfalso; apply HC; now left].
      destruct (Req_EM_T x 0) as [->|Hx]; [|exists O, x; split; [reflexivity|exact Hx]]. destruct IH as (j & y & Hj & Hy); [intros H; apply HC; now right|lra|]. exists (S j), y. split; [exact Hj|exact Hy]. }
    destruct X as (j & x & Ej & Hx). assert (Hj : (j < length (answers p))%nat) by (apply nth_error_Some; congruence). destruct (nth_error names j) as [n|] eqn:En; [|apply nth_error_None in En; lia].
    destruct (C (is_reversed n) (Some x)) as [H|(k & Hk & H)]; [rewrite Forall_forall in Fp; apply Fp; eapply nth_error_In; eauto| |].
    + unfold coded in H. destruct (Req_EM_T x 0); [contradiction|discriminate].
    + exists k. split; [exact Hk|]. apply (nth_error_In _ j). rewrite nth_error_zip_with, En, Ej. now f_equal.
Qed.
Print Assumptions C99_big_five_range.
(** The fifty columns; one person who answers 2 to everything but the last item, one with two submissions. *)
Definition ex_names : list string := flat_map (fun t => map (fun k => (t ++ k)%string) ["1"; "2"; "3"; "4"; "5"; "6"; "7"; "8"; "9"; "10"]%string) ["EXT"; "EST"; "AGR"; "CSN"; "OPN"]%string.
Definition ex_person (n : R) : person := {| answers := repeat (Some (INR 2)) 49 ++ [Some (INR 0)]; times := repeat (Some 2000) 49 ++ [None]; ipc := Some n |}.
Example C99_big_five_nonvacuous : (forall n, is_reversed n = true -> In n ex_names) /\ eligible (ex_person 1) /\ ~ eligible (ex_person 2) /\
  Forall (fun p => length (answers p) = length ex_names /\ Forall five_point (answers p)) [ex_person 1; ex_person 2].
Proof.
  split; [|split; [|split]].
  - intros n H. apply is_reversed_In in H. assert (E : forallb (named_in ex_names) reverse_items = true) by (vm_compute; reflexivity).
    rewrite forallb_forall in E. specialize (E n H). unfold named_in in E. apply existsb_exists in E. destruct E as (x & Hx & E). apply String.eqb_eq in E. now subst.
  - split; [reflexivity|]. split; [|split].
    + intros t Ht. apply in_app_or in Ht. destruct Ht as [Ht|[Ht|[]]]; [|discriminate]. apply repeat_spec in Ht. injection Ht as ->. lra.
    + intros H. apply in_app_or in H. destruct H as [H|[H|[]]]; [|discriminate]. apply repeat_spec in H. discriminate.
    + unfold answer_sum. cbn. lra.
  - intros (H & _). cbn in H. injection H as H. lra.
  - assert (F : forall n, length (answers (ex_person n)) = length ex_names /\ Forall five_point (answers (ex_person n))).
    { intros n. split; [reflexivity|]. cbn [answers ex_person]. apply Forall_app. split; [apply Forall_forall; intros c Hc; apply repeat_spec in Hc; subst; right; exists 2%nat; split; [lia|reflexivity]|].
      constructor; [right; exists O; split; [lia|reflexivity]|constructor]. }
    constructor; [apply F|constructor; [apply F|constructor]].
Qed.

(** ** The cache *)
(** A call that finishes leaves a file from which every later call answers the same, whatever the network then
    offers. *)
Theorem C99_cache : forall names disk download x disk', big_five_call names disk download false = (Ok x, disk') ->
  forall download' interrupted, big_five_call names disk' download' interrupted = (Ok x, disk') /\
  (disk = Absent -> exists file rows, download = Ok file /\ big_five_rows names file = Ok rows /\ x = (rows, file)).
Proof.
  intros names disk download x disk' H download' interrupted. unfold big_five_call in H. destruct disk as [|y|]; [|injection H as <- <-; split; [reflexivity|discriminate]|discriminate].
  destruct download as [file|e]; [|discriminate]. destruct (big_five_rows names file) as [rows|e] eqn:E; [|discriminate]. injection H as <- <-. split; [reflexivity|]. intros _. exists file, rows. auto.
Qed.
Print Assumptions C99_cache.
(** A download that fails leaves nothing behind, and the next call tries again. *)
Theorem C99_failed_download : forall names e interrupted, big_five_call names Absent (Err e) interrupted = (Err e, Absent).
Proof. reflexivity. Qed.
Print Assumptions C99_failed_download.
(** But a call interrupted while the file is being written makes every later call fail, until the file is removed
    by hand: its existence is all that is checked. *)
Theorem C99_interrupted_refuted : forall names file rows, big_five_rows names file = Ok rows ->
  exists disk, snd (big_five_call names Absent (Ok file) true) = disk /\
    forall download interrupted, big_five_call names disk download interrupted = (Err OtherError, disk).
Proof. intros names file rows E. unfold big_five_call at 1. rewrite E. eexists. split; [reflexivity|]. intros. reflexivity. Qed.
Print Assumptions C99_interrupted_refuted.
Example C99_cache_nonvacuous : exists rows, big_five_rows ex_names [ex_person 1] = Ok rows /\ big_five_call ex_names Absent (Ok [ex_person 1]) false = (Ok (rows, [ex_person 1]), Complete (rows, [ex_person 1])).
Proof.
  destruct (proj1 (C99_big_five ex_names [ex_person 1] ltac:(constructor; [reflexivity|constructor])) (proj1 C99_big_five_nonvacuous)) as (kept & _ & E). eexists. split; [exact E|]. unfold big_five_call. now rewrite E.
Qed.
