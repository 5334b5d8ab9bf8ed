(** Loops with breaks; the plateau scheduler. *)
From Verif Require Import Base BaseFacts RBase RFacts M_Lik M_Est M_Stat M_Train S_Train.
Local Open Scope R_scope.

Definition steps {X St} (body : X -> St -> St * bool) (l : list X) (st : St) : St := fold_left (fun s x => fst (body x s)) l st.
Lemma for_loop_spec {X St} (body : X -> St -> St * bool) l st :
  exists N, (N <= length l)%nat /\ for_loop body l st = steps body (firstn N l) st /\
    (forall n x, (S n < N)%nat -> nth_error l n = Some x -> snd (body x (steps body (firstn n l) st)) = false) /\
    ((N < length l)%nat -> exists n x, N = S n /\ nth_error l n = Some x /\ snd (body x (steps body (firstn n l) st)) = true).
Proof.
  revert st. induction l as [|x l IH]; intros st.
  - exists 0%nat. split; [cbn; lia|]. split; [reflexivity|]. split; [intros; lia|]. cbn; lia.
  - cbn [for_loop]. destruct (body x st) as [st' brk] eqn:E. destruct brk.
    + exists 1%nat. split; [cbn [length]; lia|]. split; [cbn [firstn]; unfold steps; cbn [fold_left]; now rewrite E|]. split; [intros; lia|]. intros _. exists 0%nat, x. cbn [nth_error firstn]. split; [reflexivity|]. split; [reflexivity|]. unfold steps. cbn [fold_left]. now rewrite E.
    + destruct (IH st') as (N & HN & HE & HF & HS). exists (S N). split; [cbn [length]; lia|]. split; [cbn [firstn]; unfold steps in *; cbn [fold_left]; rewrite E; exact HE|]. split.
      * intros [|n] y Hn Hy; cbn [nth_error firstn] in *.
        -- assert (x = y) by congruence. subst y. unfold steps. cbn [fold_left]. now rewrite E.
        -- unfold steps. cbn [fold_left]. rewrite E. cbn [fst]. apply HF; [lia|exact Hy].
      * cbn [length]. intros HL. destruct HS as (n & y & -> & Hy & HB); [lia|]. exists (S n), y. cbn [nth_error firstn]. split; [reflexivity|]. split; [exact Hy|]. unfold steps. cbn [fold_left]. rewrite E. exact HB.
Qed.
Lemma for_loop_stopped {X St} (body : X -> St -> St * bool) l1 l2 st :
  (exists n x, nth_error l1 n = Some x /\ snd (body x (steps body (firstn n l1) st)) = true) -> for_loop body (l1 ++ l2) st = for_loop body l1 st.
Proof.
  revert st; induction l1 as [|x l IH]; intros st (n & y & Hn & HB); [destruct n; discriminate|]. cbn [app for_loop]. destruct (body x st) as [st' brk] eqn:E. destruct brk; [reflexivity|]. apply IH.
  destruct n as [|n]; cbn [nth_error firstn] in *.
  - assert (x = y) by congruence. subst. unfold steps in HB. cbn [fold_left] in HB. rewrite E in HB. discriminate.
  - exists n, y. split; [exact Hn|]. unfold steps in *. cbn [fold_left] in HB. now rewrite E in HB.
Qed.
(** Whether the loop was left by a break. *)
Fixpoint broke {X St} (body : X -> St -> St * bool) (l : list X) (st : St) : bool :=
  match l with [] => false | x :: l' => let '(st', brk) := body x st in if brk then true else broke body l' st' end.
Lemma for_loop_app {X St} (body : X -> St -> St * bool) l1 l2 st :
  for_loop body (l1 ++ l2) st = if broke body l1 st then for_loop body l1 st else for_loop body l2 (for_loop body l1 st).
Proof.
  revert st; induction l1 as [|x l IH]; intros st; [reflexivity|]. cbn [app for_loop broke]. destruct (body x st) as [st' brk]. destruct brk; [reflexivity|]. apply IH.
Qed.
Lemma for_loop_map {X Y St} (g : Y -> X) (body : X -> St -> St * bool) l st : for_loop body (map g l) st = for_loop (fun y => body (g y)) l st.
Proof. revert st; induction l as [|x l IH]; intros st; [reflexivity|]. cbn [map for_loop]. destruct (body (g x) st) as [st' []]; auto. Qed.
Lemma broke_map {X Y St} (g : Y -> X) (body : X -> St -> St * bool) l st : broke body (map g l) st = broke (fun y => body (g y)) l st.
Proof. revert st; induction l as [|x l IH]; intros st; [reflexivity|]. cbn [map broke]. destruct (body (g x) st) as [st' []]; auto. Qed.
Lemma for_loop_ext {X St} (b1 b2 : X -> St -> St * bool) l st : (forall x s, b1 x s = b2 x s) -> for_loop b1 l st = for_loop b2 l st.
Proof. intros H. revert st; induction l as [|x l IH]; intros st; [reflexivity|]. cbn [for_loop]. rewrite H. destruct (b2 x st) as [st' []]; auto. Qed.

(** Nested loops are one loop over the concatenated batches when the inner break is the outer one. *)
Definition flat {B} (loader : nat -> list B) (es : list nat) : list (nat * B) := concat (map (fun e => map (pair e) (loader e)) es).
Lemma nested {B St} (it : nat -> B -> St -> St * bool) (stop : St -> bool) (loader : nat -> list B) es st :
  (forall e b s, stop s = false -> snd (it e b s) = stop (fst (it e b s))) -> stop st = false ->
  for_loop (fun e s => let s' := for_loop (it e) (loader e) s in (s', stop s')) es st = for_loop (fun eb s => it (fst eb) (snd eb) s) (flat loader es) st.
Proof.
  intros H. revert st. induction es as [|e es IH]; intros st H0; [reflexivity|]. unfold flat. cbn [map concat]. fold (flat loader es). rewrite for_loop_app, for_loop_map, broke_map. cbn [for_loop fst snd].
  assert (K : forall bs s, stop s = false -> broke (it e) bs s = stop (for_loop (it e) bs s)).
  { induction bs as [|b bs IHb]; intros s Hs; [cbn; now rewrite Hs|]. cbn [broke for_loop]. pose proof (H e b s Hs) as Hb. destruct (it e b s) as [s' brk]. cbn [fst snd] in Hb. destruct brk; [congruence|]. apply IHb. congruence. }
  change (fun y : B => it e y) with (it e). rewrite (K _ _ H0). destruct (stop (for_loop (it e) (loader e) st)) eqn:E; [reflexivity|]. now apply IH.
Qed.
Lemma for_loop_r_ok {X St} (br : X -> St -> result (St * bool)) (b : X -> St -> St * bool) l st :
  (forall x s, br x s = Ok (b x s)) -> for_loop_r br l st = Ok (for_loop b l st).
Proof.
  intros H. revert st; induction l as [|x l IH]; intros st; [reflexivity|]. cbn [for_loop_r for_loop]. rewrite H. cbn [bind]. destruct (b x st) as [st' []]; [reflexivity|apply IH].
Qed.
Lemma steps_S {X St} (body : X -> St -> St * bool) l st n x : nth_error l n = Some x -> steps body (firstn (S n) l) st = fst (body x (steps body (firstn n l) st)).
Proof.
  revert st n; induction l as [|y l IH]; intros st [|n] H; try discriminate; cbn [nth_error firstn] in *.
  - assert (y = x) by congruence. subst. destruct l; reflexivity.
  - unfold steps. cbn [fold_left]. apply IH. exact H.
Qed.

(** ** Comparisons *)
Lemma flt_lower a b : flt a b = true <-> lower a b.
Proof. destruct a as [[x| |]|], b as [[y| |]|]; cbn; try (destruct (Rlt_dec x y)); intuition (discriminate || auto). Qed.
Lemma flt_lower_false a b : flt a b = false <-> ~ lower a b.
Proof. rewrite <- flt_lower. destruct (flt a b); intuition congruence. Qed.
Lemma flt_clearly t a b : t < 1 -> b <> None -> flt a (fmul b (Some (Fin (1 - t)))) = true <-> clearly_lower t a b.
Proof.
  intros Ht Hb. rewrite flt_lower. destruct b as [[y| |]|]; [| | |congruence]; cbn.
  - destruct a as [[x| |]|]; cbn; reflexivity.
  - destruct (Req_EM_T (1 - t) 0); [lra|]. destruct (Rlt_dec 0 (1 - t)); [|lra]. cbn. destruct a as [[x| |]|]; cbn; reflexivity.
  - destruct (Req_EM_T (1 - t) 0); [lra|]. destruct (Rlt_dec 0 (1 - t)); [|lra]. cbn. destruct a as [[x| |]|]; cbn; reflexivity.
Qed.
Lemma lower_irrefl a : ~ lower a a.
Proof. destruct a as [[x| |]|]; cbn; try tauto; lra. Qed.
Lemma lower_trans a b c : lower a b -> lower b c -> lower a c.
Proof. destruct a as [[x| |]|], b as [[y| |]|], c as [[z| |]|]; cbn; try tauto; lra. Qed.
Lemma lower_some a b : lower a b -> a <> None.
Proof. destruct a; [congruence|]; cbn; tauto. Qed.
Lemma not_lower_trans a b c : ~ lower a b -> lower c b -> a = None \/ lower c a \/ ~ lower a c.
Proof. destruct a as [[x| |]|], b as [[y| |]|], c as [[z| |]|]; cbn; try tauto. intros. right. destruct (Rlt_dec z x); [tauto|right; lra]. Qed.

(** ** The plateau scheduler for a sequence of losses *)
Section Plateau.
  Variables (c : schedule) (lr : R) (l : nat -> fl).
  Fixpoint pl (n : nat) : plateau := match n with O => plateau_new lr | S n' => plateau_step c (pl n') (l n') end.
  Definition improving (n : nat) : Prop := flt (l n) (fmul (pl_best (pl n)) (Some (Fin (1 - sc_threshold c)))) = true.
  Definition waited (n : nat) : Prop := ~ improving n /\ (sc_patience c < S (pl_bad (pl n)))%nat.
  Definition event (n : nat) : Prop := improving n \/ waited n.
  Lemma improving_dec n : {improving n} + {~ improving n}.
  Proof. unfold improving. destruct (flt _ _); [now left|now right]. Qed.
  Lemma best_inv n : (none_before improving n /\ pl_best (pl n) = Some PInf) \/ (exists m, last_before improving n m /\ pl_best (pl n) = l m /\ l m <> None).
  Proof.
    induction n as [|n IH]; [left; split; [intros k; lia|reflexivity]|].
    assert (EB : pl_best (pl (S n)) = if flt (l n) (fmul (pl_best (pl n)) (Some (Fin (1 - sc_threshold c)))) then l n else pl_best (pl n)).
    { cbn [pl]. unfold plateau_step. destruct (flt _ _); destruct (_ <? _)%nat; reflexivity. }
    destruct (improving_dec n) as [HI|HI].
    - right. exists n. split; [split; [lia|split; [exact HI|intros; lia]]|]. unfold improving in HI. rewrite HI in EB. split; [exact EB|]. apply flt_lower in HI. exact (lower_some _ _ HI).
    - assert (F : flt (l n) (fmul (pl_best (pl n)) (Some (Fin (1 - sc_threshold c)))) = false) by (unfold improving in HI; destruct (flt _ _); congruence). rewrite F in EB. destruct IH as [[H1 H2]|(m & (L1 & L2 & L3) & H2)].
      + left. split; [|congruence]. intros k Hk. destruct (Nat.eq_dec k n) as [->|]; [exact HI|apply H1; lia].
      + right. exists m. split; [|rewrite EB; exact H2]. split; [lia|]. split; [exact L2|]. intros k Hk. destruct (Nat.eq_dec k n) as [->|]; [exact HI|apply L3; lia].
  Qed.
  Lemma bad_inv n : (none_before event n /\ pl_bad (pl n) = n) \/ (exists m, last_before event n m /\ n = (m + pl_bad (pl n) + 1)%nat).
  Proof.
    induction n as [|n IH]; [left; split; [intros k; lia|reflexivity]|].
    assert (EB : pl_bad (pl (S n)) = if flt (l n) (fmul (pl_best (pl n)) (Some (Fin (1 - sc_threshold c)))) then O else if (sc_patience c <? S (pl_bad (pl n)))%nat then O else S (pl_bad (pl n))).
    { cbn [pl]. unfold plateau_step. destruct (flt _ _); [destruct (sc_patience c <? 0)%nat eqn:E; [apply Nat.ltb_lt in E; lia|reflexivity]|]. destruct (_ <? _)%nat; reflexivity. }
    destruct (improving_dec n) as [HI|HI].
    - right. exists n. unfold improving in HI. rewrite HI in EB. split; [split; [lia|split; [now left|intros; lia]]|]. lia.
    - assert (F : flt (l n) (fmul (pl_best (pl n)) (Some (Fin (1 - sc_threshold c)))) = false) by (unfold improving in HI; destruct (flt _ _); congruence). rewrite F in EB.
      destruct (sc_patience c <? S (pl_bad (pl n)))%nat eqn:EP.
      + right. exists n. split; [split; [lia|split; [right; split; [exact HI|now apply Nat.ltb_lt]|intros; lia]]|]. lia.
      + apply Nat.ltb_ge in EP. assert (NE : ~ event n) by (intros [H|[_ H]]; [tauto|lia]).
        destruct IH as [[H1 H2]|(m & (L1 & L2 & L3) & H2)].
        * left. split; [|lia]. intros k Hk. destruct (Nat.eq_dec k n) as [->|]; [exact NE|apply H1; lia].
        * right. exists m. split; [|lia]. split; [lia|]. split; [exact L2|]. intros k Hk. destruct (Nat.eq_dec k n) as [->|]; [exact NE|apply L3; lia].
  Qed.
  Lemma bad_bound n : (pl_bad (pl n) <= sc_patience c)%nat.
  Proof.
    induction n as [|n IH]; [cbn; lia|]. cbn [pl]. unfold plateau_step. destruct (flt _ _).
    - destruct (_ <? 0)%nat; cbn; lia.
    - destruct (sc_patience c <? S (pl_bad (pl n)))%nat eqn:E; cbn; [lia|]. apply Nat.ltb_ge in E. exact E.
  Qed.
  Lemma last_unique (E : nat -> Prop) n m m' : last_before E n m -> last_before E n m' -> m = m'.
  Proof. intros (A1 & A2 & A3) (B1 & B2 & B3). destruct (Nat.lt_trichotomy m m') as [H|[H|H]]; [exfalso; apply (A3 m'); [lia|exact B2]|exact H|exfalso; apply (B3 m); [lia|exact A2]]. Qed.
  Lemma last_none (E : nat -> Prop) n m : last_before E n m -> none_before E n -> False.
  Proof. intros (A1 & A2 & _) H. exact (H m A1 A2). Qed.
  Lemma plateau_rule_holds : sc_threshold c < 1 -> plateau_rule (sc_threshold c) (sc_patience c) l improving waited.
  Proof.
    intros Ht. split; intros n.
    - destruct (best_inv n) as [[H1 H2]|(m & H1 & H2 & H3)].
      + unfold improving at 1. rewrite H2, flt_clearly by (exact Ht || discriminate). split; [auto|]. intros [(m & Hm & _)|[_ H]]; [exfalso; exact (last_none _ _ _ Hm H1)|exact H].
      + unfold improving at 1. rewrite H2, flt_clearly by assumption. split; [intros H; left; exists m; auto|]. intros [(m' & Hm & H)|[H _]]; [|exfalso; exact (last_none _ _ _ H1 H)]. now rewrite (last_unique _ _ _ _ H1 Hm).
    - unfold waited at 1. split.
      + intros [HI HB]. split; [exact HI|]. pose proof (bad_bound n). destruct (bad_inv n) as [[H1 H2]|(m & H1 & H2)]; [right; split; [exact H1|lia]|left; exists m; split; [exact H1|lia]].
      + intros [HI H]. split; [exact HI|]. destruct (bad_inv n) as [[H1 H2]|(m & H1 & H2)], H as [(m' & Hm & E)|[Hn E]].
        * exfalso; exact (last_none _ _ _ Hm H1).
        * lia.
        * pose proof (last_unique _ _ _ _ H1 Hm). lia.
        * exfalso; exact (last_none _ _ _ H1 Hn).
  Qed.
  Lemma rate_pos : 0 < lr -> 0 < sc_factor c -> forall n, 0 < pl_lr (pl n).
  Proof.
    intros HL HF. induction n as [|n IH]; [exact HL|]. cbn [pl]. unfold plateau_step. destruct (_ <? _)%nat; cbn [pl_lr]; [|exact IH]. destruct (Rlt_dec _ _); [|exact IH].
    rewrite Rmax_left; [|apply Rlt_le]; now apply Rmult_lt_0_compat.
  Qed.
  Lemma rates_hold : 0 < lr -> 0 < sc_factor c -> sc_threshold c < 1 -> rates_follow (sc_factor c) (sc_threshold c) (sc_patience c) lr l (fun n => pl_lr (pl n)).
  Proof.
    intros HL HF HT. split; [reflexivity|]. exists improving, waited. split; [now apply plateau_rule_holds|]. intros n. cbn [pl]. unfold plateau_step.
    pose proof (rate_pos HL HF n) as HP. assert (HM : Rmax (pl_lr (pl n) * sc_factor c) 0 = pl_lr (pl n) * sc_factor c) by (apply Rmax_left, Rlt_le; now apply Rmult_lt_0_compat).
    rewrite HM. unfold waited, improving. destruct (flt (l n) _) eqn:EF; cbn [pl_lr].
    - destruct (sc_patience c <? 0)%nat eqn:E; [apply Nat.ltb_lt in E; lia|]. cbn [pl_lr]. split; [intros [[H _] _]; congruence|reflexivity].
    - destruct (sc_patience c <? S (pl_bad (pl n)))%nat eqn:E; cbn [pl_lr].
      + apply Nat.ltb_lt in E. destruct (Rlt_dec _ _) as [H|H]; (split; [intros [_ H']|intros H']); try reflexivity; try lra. exfalso. apply H'. split; [split; [congruence|exact E]|lra].
      + apply Nat.ltb_ge in E. split; [intros [[_ H] _]; lia|reflexivity].
  Qed.
End Plateau.
Lemma pl_ext c lr l l' n : (forall m, (m < n)%nat -> l m = l' m) -> pl c lr l n = pl c lr l' n.
Proof. induction n as [|n IH]; intros H; [reflexivity|]. cbn [pl]. rewrite IH by (intros; apply H; lia). now rewrite H by lia. Qed.
Lemma drops_S rate n : drops rate (S n) = (drops rate n + if Req_EM_T (rate (S n)) (rate n) then 0 else 1)%nat.
Proof. unfold drops. rewrite seq_S, filter_app, app_length. cbn [filter Nat.add]. destruct (Req_EM_T (rate (S n)) (rate n)); cbn [length]; reflexivity. Qed.
Lemma drops_mono rate n m : (n <= m)%nat -> (drops rate n <= drops rate m)%nat.
Proof. induction 1 as [|m H IH]; [lia|]. rewrite drops_S. lia. Qed.
