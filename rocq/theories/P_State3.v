(** Flags during ML/MAP scoring. *)
From Coq Require Import Reals.
From Verif Require Import Base BaseFacts RBase RFacts M_Data M_State S_State.
Local Open Scope nat_scope.

Lemma map_const_false : forall (l : list bool) k, nth k (map (fun _ => false) l) false = false.
Proof. induction l as [|b l IH]; intros [|k]; cbn; auto. Qed.

Lemma mapi_id : forall {A} (f : nat -> A -> A) l, (forall k x, f k x = x) -> mapi f l = l.
Proof.
  intros A f l H. apply nth_error_ext. intros i. rewrite nth_error_mapi. destruct (nth_error l i); cbn; [rewrite H|]; reflexivity.
Qed.

Definition frozen (fl : list bool) (s : scoring) : Prop := sc_flags s = map (fun _ => false) fl.

Lemma backward_frozen : forall fl g s, frozen fl s -> backward g s = s.
Proof.
  intros fl g s H. unfold backward. rewrite mapi_id.
  - destruct s; reflexivity.
  - intros k x. rewrite H, map_const_false. reflexivity.
Qed.

Lemma fold_backward : forall fl gs s, frozen fl s -> fold_left (fun s g => backward g s) gs s = s.
Proof. intros fl gs. induction gs as [|g gs IH]; intros s H; [reflexivity|]. cbn [fold_left]. rewrite (backward_frozen fl) by exact H. apply IH. exact H. Qed.

Lemma iterate_frozen : forall w fl fuel i s, frozen fl s ->
  exists b r, iterate w fuel i s = (Scoring (sc_values s) (sc_grads s) (map (fun _ => false) fl) (sc_opt s) b, r) /\
    (fuel <> 0 -> b = true).
Proof.
  intros w fl fuel. induction fuel as [|fuel IH]; intros i s H.
  - exists (sc_i s), None. cbn [iterate]. split; [|contradiction]. destruct s; unfold frozen in H; cbn in *; subst; reflexivity.
  - cbn [iterate]. assert (Hb : frozen fl (bind_i s)) by exact H.
    assert (Es : bind_i s = Scoring (sc_values s) (sc_grads s) (map (fun _ => false) fl) (sc_opt s) true).
    { unfold bind_i. rewrite H. reflexivity. }
    destruct (w_map w && negb (w_has_prior w)).
    + exists true, (Some (Exc OtherError)). rewrite Es. split; reflexivity.
    + rewrite (fold_backward fl) by exact Hb. destruct (w_raise w i) as [e|].
      * exists true, (Some e). rewrite Es. split; reflexivity.
      * destruct (w_stop w i).
        -- exists true, None. rewrite Es. split; reflexivity.
        -- destruct (IH (S i) (bind_i s) Hb) as (b & r & E & Hbr). exists b, r. rewrite E. rewrite Es. cbn. split; [reflexivity|].
           intros _. destruct fuel; [|apply Hbr; discriminate].
           cbn [iterate] in E. rewrite Es in E. congruence.
Qed.

(** Exit states.  The four exits: in the prior, before the scores are assigned, before the first
    iteration, from the loop. *)
Inductive exit := InPrior (e : raised) | InInit (e : raised) | InSetup (e : raised) | FromLoop (r : option raised).
Definition exit_of (w : world) (cuda : bool) (s : scoring) (x : exit) : Prop :=
  match x with
  | InPrior e => w_map w = true /\ w_has_prior w = true /\ w_prior w = Some e
  | InInit e => (w_map w = true -> w_has_prior w = true -> w_prior w = None) /\ w_init w = Some e
  | InSetup e => (w_map w = true -> w_has_prior w = true -> w_prior w = None) /\ w_init w = None /\ w_setup w = Some e
  | FromLoop r => (w_map w = true -> w_has_prior w = true -> w_prior w = None) /\ w_init w = None /\ w_setup w = None /\
      r = snd (iterate w (if cuda then 50 else 40) 0 (bind_opt (with_flags false s)))
  end.

Lemma exits : forall w cuda s, exists x, exit_of w cuda s x.
Proof.
  intros w cuda s. destruct (w_map w) eqn:Em.
  - destruct (w_has_prior w) eqn:Ep.
    + destruct (w_prior w) as [e|] eqn:E; [exists (InPrior e); cbn; auto|].
      destruct (w_init w) as [e|] eqn:E1; [exists (InInit e); cbn; auto|].
      destruct (w_setup w) as [e|] eqn:E2; [exists (InSetup e); cbn; auto|]. eexists (FromLoop _). cbn. auto.
    + destruct (w_init w) as [e|] eqn:E1; [exists (InInit e); cbn; split; [congruence|auto]|].
      destruct (w_setup w) as [e|] eqn:E2; [exists (InSetup e); cbn; split; [congruence|auto]|]. eexists (FromLoop _). cbn. split; [congruence|auto].
  - destruct (w_init w) as [e|] eqn:E1; [exists (InInit e); cbn; split; [congruence|auto]|].
    destruct (w_setup w) as [e|] eqn:E2; [exists (InSetup e); cbn; split; [congruence|auto]|]. eexists (FromLoop _). cbn. split; [congruence|auto].
Qed.

Lemma no_prior : forall w, (w_map w = true -> w_has_prior w = true -> w_prior w = None) ->
  (if w_map w && w_has_prior w then w_prior w else None) = None.
Proof. intros w H. destruct (w_map w), (w_has_prior w); cbn; auto. Qed.

Definition set_i (e : raised) (bound : bool) : raised := match e with Interrupt => Interrupt | Exc x => if bound then Exc x else Exc UnboundLocalError end.

Lemma exit_prior : forall w cuda v g fl e, exit_of w cuda (start_scoring v g fl) (InPrior e) ->
  ml_map w cuda (start_scoring v g fl) = (start_scoring v g fl, Some (match w_cpu w with Some x => x | None => Exc UnboundLocalError end)).
Proof.
  intros w cuda v g fl e (H1 & H2 & H3). unfold ml_map, body. rewrite H1, H2, H3. cbn [andb]. unfold finally.
  cbn [start_scoring sc_opt]. destruct (w_cpu w); reflexivity.
Qed.

Lemma exit_init : forall w cuda v g fl e, exit_of w cuda (start_scoring v g fl) (InInit e) ->
  ml_map w cuda (start_scoring v g fl) =
  (start_scoring v g (map (fun _ => false) fl), Some (match w_cpu w with Some x => x | None => Exc UnboundLocalError end)).
Proof.
  intros w cuda v g fl e (H1 & H2). unfold ml_map, body. rewrite no_prior by exact H1. rewrite H2. unfold finally.
  cbn. destruct (w_cpu w); reflexivity.
Qed.

Lemma map_map_const : forall {A} (a b : bool) (l : list A), map (fun _ => a) (map (fun _ => b) l) = map (fun _ => a) l.
Proof. intros. rewrite map_map. reflexivity. Qed.

Lemma exit_setup : forall w cuda v g fl e, exit_of w cuda (start_scoring v g fl) (InSetup e) ->
  ml_map w cuda (start_scoring v g fl) =
  (Scoring v g (map (fun _ => match w_cpu w with Some _ => false | None => true end) fl) true false,
   Some (match w_cpu w with Some x => x | None => set_i e false end)).
Proof.
  intros w cuda v g fl e (H1 & H2 & H3). unfold ml_map, body. rewrite no_prior by exact H1. rewrite H2, H3. unfold finally.
  cbn. destruct (w_cpu w); [reflexivity|]. unfold with_flags. cbn. rewrite map_map_const. reflexivity.
Qed.

Lemma exit_loop : forall w cuda v g fl r, exit_of w cuda (start_scoring v g fl) (FromLoop r) ->
  exists b, ml_map w cuda (start_scoring v g fl) =
  (Scoring v g (map (fun _ => match w_cpu w with Some _ => false | None => true end) fl) true b,
   match w_cpu w with Some x => Some x | None => r end).
Proof.
  intros w cuda v g fl r (H1 & H2 & H3 & H4). unfold ml_map, body. rewrite no_prior by exact H1. rewrite H2, H3.
  set (n := if cuda then 50 else 40) in *.
  assert (Hn : n <> 0) by (unfold n; destruct cuda; discriminate). clearbody n.
  destruct (iterate_frozen w fl n 0 (bind_opt (with_flags false (start_scoring v g fl)))) as (b & r' & E & Hb); [reflexivity|].
  rewrite E in H4. cbn [snd] in H4. subst r'. rewrite E. specialize (Hb Hn). subst b. exists true.
  cbn [bind_opt with_flags start_scoring sc_values sc_grads sc_flags sc_opt sc_i]. unfold finally. cbn [sc_opt].
  destruct (w_cpu w) as [x|]; [reflexivity|]. unfold with_flags. cbn [sc_values sc_grads sc_flags sc_opt sc_i]. rewrite map_map_const.
  destruct r as [[e|]|]; reflexivity.
Qed.

Lemma all_true_map : forall {A} (l : list A), all_true (map (fun _ => true) l).
Proof. intros A l b H. apply in_map_iff in H. destruct H as (x & E & _). auto. Qed.
Lemma all_false_map : forall {A} (l : list A), all_false (map (fun _ => false) l).
Proof. intros A l b H. apply in_map_iff in H. destruct H as (x & E & _). auto. Qed.
Lemma all_true_eq : forall fl, all_true fl -> map (fun _ : bool => true) fl = fl.
Proof. intros fl H. rewrite <- (map_id fl) at 2. apply map_ext_in. intros b Hb. symmetry. apply H. exact Hb. Qed.

(** Values and gradients. *)
Theorem values_kept : forall w cuda v g fl, let s := fst (ml_map w cuda (start_scoring v g fl)) in
  sc_values s = v /\ sc_grads s = g /\ length (sc_flags s) = length fl.
Proof.
  intros w cuda v g fl. destruct (exits w cuda (start_scoring v g fl)) as ([e|e|e|r] & H).
  - rewrite (exit_prior _ _ _ _ _ _ H). cbn. auto.
  - rewrite (exit_init _ _ _ _ _ _ H). cbn. rewrite map_length. auto.
  - rewrite (exit_setup _ _ _ _ _ _ H). cbn. rewrite map_length. auto.
  - destruct (exit_loop _ _ _ _ _ _ H) as (b & ->). cbn. rewrite map_length. auto.
Qed.

Theorem flags_on_return : forall w cuda v g fl s, ml_map w cuda (start_scoring v g fl) = (s, None) ->
  sc_flags s = map (fun _ : bool => true) fl.
Proof.
  intros w cuda v g fl s E. destruct (exits w cuda (start_scoring v g fl)) as ([e|e|e|r] & H).
  - rewrite (exit_prior _ _ _ _ _ _ H) in E. discriminate E.
  - rewrite (exit_init _ _ _ _ _ _ H) in E. discriminate E.
  - rewrite (exit_setup _ _ _ _ _ _ H) in E. discriminate E.
  - destruct (exit_loop _ _ _ _ _ _ H) as (b & E'). rewrite E' in E. destruct (w_cpu w); [discriminate E|]. injection E as <- _. reflexivity.
Qed.

(** The steps before the scores are assigned and the move back succeed: trainable parameters stay so. *)
Theorem flags_trainable : forall w cuda v g fl, all_true fl -> w_init w = None -> w_cpu w = None ->
  sc_flags (fst (ml_map w cuda (start_scoring v g fl))) = fl.
Proof.
  intros w cuda v g fl Ht Hi Hc. destruct (exits w cuda (start_scoring v g fl)) as ([e|e|e|r] & H).
  - rewrite (exit_prior _ _ _ _ _ _ H). reflexivity.
  - destruct H as [_ H]. congruence.
  - rewrite (exit_setup _ _ _ _ _ _ H), Hc. cbn. apply all_true_eq. exact Ht.
  - destruct (exit_loop _ _ _ _ _ _ H) as (b & ->). rewrite Hc. cbn. apply all_true_eq. exact Ht.
Qed.

Theorem flags_lost : forall w cuda v g fl e, (w_map w = true -> w_has_prior w = true -> w_prior w = None) ->
  w_init w = Some e -> w_cpu w = None ->
  ml_map w cuda (start_scoring v g fl) = (start_scoring v g (map (fun _ => false) fl), Some (Exc UnboundLocalError)).
Proof.
  intros w cuda v g fl e Hp Hi Hc. rewrite (exit_init w cuda v g fl e); [rewrite Hc; reflexivity|]. split; assumption.
Qed.

Theorem error_masked : forall w cuda v g fl x, (w_map w = true -> w_has_prior w = true -> w_prior w = None) ->
  w_init w = None -> w_setup w = Some (Exc x) -> w_cpu w = None ->
  snd (ml_map w cuda (start_scoring v g fl)) = Some (Exc UnboundLocalError).
Proof.
  intros w cuda v g fl x Hp Hi Hs Hc. rewrite (exit_setup w cuda v g fl (Exc x)); [rewrite Hc; reflexivity|]. repeat split; assumption.
Qed.

(** An exception of an iteration is the one reported. *)
Lemma iterate_reached : forall w n fuel i s e, (w_map w = true -> w_has_prior w = true) ->
  n < fuel -> (forall k, k < n -> w_raise w (i + k) = None /\ w_stop w (i + k) = false) -> w_raise w (i + n) = Some e ->
  snd (iterate w fuel i s) = Some e.
Proof.
  intros w n. induction n as [|n IH]; intros fuel i s e Hp Hf Hk Hr; (destruct fuel as [|fuel]; [lia|]); cbn [iterate];
  (replace (w_map w && negb (w_has_prior w)) with false by (destruct (w_map w); [rewrite Hp by reflexivity|]; reflexivity)).
  - rewrite Nat.add_0_r in Hr. rewrite Hr. reflexivity.
  - destruct (Hk 0 ltac:(lia)) as [H1 H2]. rewrite Nat.add_0_r in H1, H2. rewrite H1, H2. apply IH; [exact Hp | lia | | ].
    + intros k Hlt. replace (S i + k) with (i + S k) by lia. apply Hk. lia.
    + replace (S i + n) with (i + S n) by lia. exact Hr.
Qed.

Theorem iteration_error : forall w (cuda : bool) v g fl n e, (w_map w = true -> w_has_prior w = true /\ w_prior w = None) ->
  w_init w = None -> w_setup w = None -> w_cpu w = None ->
  n < (if cuda then 50 else 40) -> (forall k, k < n -> w_raise w k = None /\ w_stop w k = false) -> w_raise w n = Some e ->
  exists s, ml_map w cuda (start_scoring v g fl) = (s, Some e) /\ sc_flags s = map (fun _ : bool => true) fl.
Proof.
  intros w cuda v g fl n e Hp Hi Hs Hc Hn Hk Hr.
  destruct (exit_loop w cuda v g fl (Some e)) as (b & E).
  - split; [intros Hm _; apply Hp; exact Hm|]. split; [exact Hi|]. split; [exact Hs|]. symmetry.
    apply (iterate_reached w n); auto. intros Hm. apply Hp. exact Hm.
  - eexists. split; [rewrite E, Hc; reflexivity | reflexivity].
Qed.

(** Without prior: the MAP request fails at the first iteration. *)
Theorem map_without_prior : forall w cuda v g fl, w_map w = true -> w_has_prior w = false ->
  w_init w = None -> w_setup w = None -> w_cpu w = None ->
  exists s, ml_map w cuda (start_scoring v g fl) = (s, Some (Exc OtherError)) /\ sc_flags s = map (fun _ : bool => true) fl.
Proof.
  intros w cuda v g fl Hm Hp Hi Hs Hc. destruct (exit_loop w cuda v g fl (Some (Exc OtherError))) as (b & E).
  - split; [congruence|]. split; [exact Hi|]. split; [exact Hs|]. destruct cuda; cbn [iterate]; rewrite Hm, Hp; reflexivity.
  - eexists. split; [rewrite E, Hc; reflexivity | reflexivity].
Qed.
