(** Proofs: saving and loading. *)
From Coq Require Import String.
From Verif Require Import Base BaseFacts RBase M_BSpl S_BSpl.
Import List.
Local Open Scope R_scope.

Lemma lookup_in {V} (l : list (string * V)) e : NoDup (map fst l) -> In e l -> lookup (fst e) l = Some (snd e).
Proof.
  induction l as [|[n v] l IH]; intros HN Hin; [contradiction|]. cbn [map fst] in HN. inversion HN as [|? ? Hn HN']. subst. cbn [lookup].
  destruct Hin as [<-|Hin]; [cbn [fst snd]; now rewrite String.eqb_refl|]. destruct (String.eqb_spec n (fst e)) as [E|E]; [|now apply IH].
  exfalso. apply Hn. rewrite E. now apply in_map.
Qed.
Lemma lookup_none {V} (l : list (string * V)) n : lookup n l = None <-> ~ In n (map fst l).
Proof.
  induction l as [|[m v] l IH]; cbn [lookup map fst In]; [tauto|]. destruct (String.eqb_spec m n) as [E|E].
  - split; [discriminate|]. intro H. exfalso. apply H. now left.
  - rewrite IH. intuition congruence.
Qed.
Lemma lookup_some_in {V} (l : list (string * V)) n v : lookup n l = Some v -> In (n, v) l.
Proof.
  induction l as [|[m w] l IH]; cbn [lookup]; intro H; [discriminate|]. destruct (String.eqb_spec m n) as [->|E]; [injection H as ->; now left|right; auto].
Qed.
Lemma shape_eqb_spec a b : shape_eqb a b = true <-> a = b.
Proof. unfold shape_eqb. destruct (list_eq_dec Nat.eq_dec a b); split; congruence. Qed.
Lemma agree_names a b : entries_agree a b -> map fst a = map fst b.
Proof.
  unfold entries_agree. intro H. apply (f_equal (map fst)) in H. rewrite !map_map in H. cbn [fst] in H. exact H.
Qed.
Lemma load_agreeing given own : NoDup (map fst given) -> entries_agree given own -> load_state_dict given own = (Ok tt, given).
Proof.
  intros HN HA. pose proof (agree_names _ _ HA) as Hnames.
  assert (Hpos : forall q e, nth_error own q = Some e -> exists v : tensor, nth_error given q = Some (fst e, v) /\ lookup (fst e) given = Some v /\ fst v = fst (snd e)).
  { intros q e He. pose proof (f_equal (fun l => nth_error l q) HA) as E. cbv beta in E.
    rewrite !nth_error_map in E. unfold tensor in *. rewrite He in E.
    destruct (nth_error given q) as [[n v]|] eqn:Eg; [|discriminate]. cbn in E. injection E as E1 E2. subst n.
    exists v. split; [reflexivity|]. split; [|exact E2]. apply (lookup_in given (fst e, v)); auto. eapply nth_error_In; eauto. }
  unfold load_state_dict. f_equal.
  - replace (forallb (matches given) own) with true; [replace (forallb (expected_entry own) given) with true; [reflexivity|]|].
    + symmetry. apply forallb_forall. intros e He. unfold expected_entry. destruct (lookup (fst e) own) eqn:E; [reflexivity|]. apply lookup_none in E. exfalso. apply E. rewrite <- Hnames. now apply in_map.
    + symmetry. apply forallb_forall. intros e He. apply In_nth_error in He as (q & He). destruct (Hpos q e He) as (v & _ & E & Es). unfold matches. rewrite E. now apply shape_eqb_spec.
  - apply nth_error_ext. intro q. rewrite nth_error_map. destruct (nth_error own q) as [e|] eqn:Ee; cbn [option_map].
    + destruct (Hpos q e Ee) as (v & Eg & El & Es). rewrite Eg. unfold load_entry. rewrite El. rewrite (proj2 (shape_eqb_spec _ _) Es). reflexivity.
    + apply nth_error_None in Ee. symmetry. apply nth_error_None. apply (f_equal (@length _)) in Hnames. rewrite !map_length in Hnames. lia.
Qed.
Lemma load_accepts given own : fst (load_state_dict given own) = Ok tt <->
  (forall n v, In (n, v) own -> exists w, lookup n given = Some w /\ fst w = fst v) /\ (forall n, In n (map fst given) -> In n (map fst own)).
Proof.
  unfold load_state_dict. cbn [fst]. split.
  - destruct (forallb (matches given) own) eqn:E1; [|discriminate]. destruct (forallb (expected_entry own) given) eqn:E2; [|discriminate]. intros _. rewrite forallb_forall in E1, E2. split.
    + intros n v Hin. specialize (E1 _ Hin). unfold matches in E1. cbn [fst snd] in E1. destruct (lookup n given) as [w|]; [|discriminate]. exists w. split; [reflexivity|]. now apply shape_eqb_spec.
    + intros n Hin. apply in_map_iff in Hin as (e & <- & Hin). specialize (E2 _ Hin). unfold expected_entry in E2. destruct (lookup (fst e) own) as [w|] eqn:E; [|discriminate]. apply lookup_some_in in E. apply in_map_iff. exists (fst e, w). auto.
  - intros [H1 H2]. replace (forallb (matches given) own) with true; [replace (forallb (expected_entry own) given) with true; [reflexivity|]|].
    + symmetry. apply forallb_forall. intros e He. unfold expected_entry. destruct (lookup (fst e) own) eqn:E; [reflexivity|]. apply lookup_none in E. exfalso. apply E. apply H2. now apply in_map.
    + symmetry. apply forallb_forall. intros [n v] He. destruct (H1 n v He) as (w & E & Es). unfold matches. cbn [fst snd]. rewrite E. now apply shape_eqb_spec.
Qed.
Lemma load_result given own : fst (load_state_dict given own) = Ok tt \/ fst (load_state_dict given own) = Err RuntimeError.
Proof. unfold load_state_dict. cbn [fst]. destruct (_ && _); auto. Qed.
(** Entry by entry, whether or not the load is accepted. *)
Lemma load_entries given own q n v : nth_error own q = Some (n, v) ->
  nth_error (snd (load_state_dict given own)) q =
    Some (n, match lookup n given with Some w => if shape_eqb (fst w) (fst v) then w else v | None => v end).
Proof.
  intro H. unfold load_state_dict. cbn [snd]. rewrite nth_error_map, H. cbn [option_map]. unfold load_entry. cbn [fst snd].
  destruct (lookup n given) as [w|]; [|reflexivity]. destruct (shape_eqb (fst w) (fst v)); reflexivity.
Qed.
