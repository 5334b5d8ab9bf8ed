(** Joint and marginal maximum likelihood: the loops as one run. *)
From Verif Require Import Base BaseFacts RBase RFacts M_Lik M_Est M_Stat M_Train S_Train P_Train1.
Local Open Scope R_scope.

Section Run.
  Context {W B : Type}.
  Variables (loss : B -> W -> fl) (update : B -> R -> W -> W) (c : schedule) (lr : R) (w0 : W) (bs : list (nat * B)).
  Fixpoint run (n : nat) : W * plateau :=
    match n with
    | O => (w0, plateau_new lr)
    | S n' => let '(w, p) := run n' in
              match nth_error bs n' with
              | Some (_, b) => (update b (pl_lr p) w, plateau_step c p (loss b w))
              | None => (w, plateau_step c p None)
              end
    end.
  Definition rw (n : nat) : W := fst (run n).
  Definition rp (n : nat) : plateau := snd (run n).
  Definition rl (n : nat) : fl := match nth_error bs n with Some (_, b) => loss b (rw n) | None => None end.
  Definition rr (n : nat) : R := pl_lr (rp n).
  Lemma rp_pl n : rp n = pl c lr rl n.
  Proof.
    induction n as [|n IH]; [reflexivity|]. cbn [pl]. rewrite <- IH. unfold rl, rp, rw in *. cbn [run]. destruct (run n) as [w p]. destruct (nth_error bs n) as [[e b]|]; reflexivity.
  Qed.
  Lemma rw_S n e b : nth_error bs n = Some (e, b) -> rw (S n) = update b (rr n) (rw n) /\ rp (S n) = plateau_step c (rp n) (rl n) /\ rl n = loss b (rw n).
  Proof. intros H. unfold rl, rr, rw, rp in *. cbn [run]. destruct (run n) as [w p]. rewrite H. cbn [fst snd]. auto. Qed.

  (** What the fields of the loop state mean after [n] batches. *)
  Definition best_ok (n : nat) (best : fl) (epoch : nat) (saved : option (W * R)) : Prop :=
    (saved = None /\ best = Some PInf /\ epoch = 0%nat /\ forall m, (m < n)%nat -> ~ lower (rl m) (Some PInf)) \/
    (exists i b, first_lowest rl n i /\ best = rl i /\ saved = Some (rw (S i), rr (S i)) /\ nth_error bs i = Some (epoch, b)).
  Definition core (n : nat) (t : tstate (W:=W)) : Prop :=
    t_w t = rw n /\ t_plateau t = rp n /\ t_history t = map rl (seq 0 n) /\ t_count t = drops rr n /\ best_ok n (t_best t) (t_best_epoch t) (t_saved t).
  Lemma best_ok_S n e b best epoch saved : nth_error bs n = Some (e, b) -> best_ok n best epoch saved ->
    best_ok (S n) (if flt (rl n) best then rl n else best) (if flt (rl n) best then e else epoch) (if flt (rl n) best then Some (rw (S n), rr (S n)) else saved).
  Proof.
    intros Hn [(-> & -> & -> & HL)|(i & b' & (Hi & HP & HM & HF) & -> & -> & HE)].
    - destruct (flt (rl n) (Some PInf)) eqn:E.
      + right. exists n, b. apply flt_lower in E. split; [|split; [reflexivity|split; [reflexivity|exact Hn]]]. split; [lia|]. split; [exact E|]. split.
        * intros m Hm Hl. destruct (Nat.eq_dec m n) as [->|]; [exact (lower_irrefl _ Hl)|]. apply (HL m); [lia|]. exact (lower_trans _ _ _ Hl E).
        * intros m Hm. specialize (HL m Hm). destruct (rl m) as [[x| |]|]; [cbn in HL; tauto|cbn in HL; tauto| |now left]. right. destruct (rl n) as [[y| |]|]; cbn in *; tauto.
      + left. apply flt_lower_false in E. split; [reflexivity|]. split; [reflexivity|]. split; [reflexivity|]. intros m Hm. destruct (Nat.eq_dec m n) as [->|]; [exact E|apply HL; lia].
    - right. destruct (flt (rl n) (rl i)) eqn:E.
      + apply flt_lower in E. exists n, b. split; [|split; [reflexivity|split; [reflexivity|exact Hn]]]. split; [lia|]. split; [exact (lower_trans _ _ _ E HP)|]. split.
        * intros m Hm Hl. destruct (Nat.eq_dec m n) as [->|]; [exact (lower_irrefl _ Hl)|]. apply (HM m); [lia|]. exact (lower_trans _ _ _ Hl E).
        * intros m Hm. specialize (HM m Hm). destruct (rl m) as [[x| |]|], (rl n) as [[y| |]|], (rl i) as [[z| |]|]; cbn in *; try tauto; try (right; lra).
      + apply flt_lower_false in E. exists i, b'. split; [|split; [reflexivity|split; [reflexivity|exact HE]]]. split; [lia|]. split; [exact HP|]. split; [|exact HF].
        intros m Hm. destruct (Nat.eq_dec m n) as [->|]; [exact E|apply HM; lia].
  Qed.
  Lemma core_0 : core 0 (t_start lr w0).
  Proof. split; [reflexivity|]. split; [reflexivity|]. split; [reflexivity|]. split; [reflexivity|]. left. split; [reflexivity|]. split; [reflexivity|]. split; [reflexivity|]. intros; lia. Qed.
  Lemma differs_drops n t : core n t -> t_prev t = rr n -> 
    (if differs (rr (S n)) (t_prev t) then S (t_count t) else t_count t) = drops rr (S n) /\ (differs (rr (S n)) (t_prev t) = false -> rr (S n) = rr n) /\
    (differs (rr (S n)) (t_prev t) = false -> drops rr (S n) = drops rr n).
  Proof.
    intros (_ & _ & _ & HC & _) HP. rewrite HP, HC, drops_S. unfold differs. destruct (Req_EM_T (rr (S n)) (rr n)) as [E|E]; (split; [lia|]); (split; [|lia || discriminate]); [auto|discriminate].
  Qed.
  Lemma jml_batch_core limit n e b t : nth_error bs n = Some (e, b) -> core n t -> t_prev t = rr n -> (Z.of_nat (drops rr n) < limit)%Z ->
    core (S n) (fst (jml_batch loss update c limit e b t)) /\
    snd (jml_batch loss update c limit e b t) = reached_limit limit (drops rr (S n)) /\
    (snd (jml_batch loss update c limit e b t) = false -> t_prev (fst (jml_batch loss update c limit e b t)) = rr (S n)).
  Proof.
    intros Hn HC HP HL. destruct (differs_drops n t HC HP) as (D1 & D2 & D3). destruct HC as (CW & CP & CH & CC & CB). destruct (rw_S n e b Hn) as (E1 & E2 & E3).
    unfold jml_batch. cbv zeta. rewrite CW, CP, <- E3, <- E2. fold (rr n) (rr (S n)). rewrite <- E1, D1. cbn [fst snd t_prev].
    split; [|split].
    - split; [reflexivity|]. split; [reflexivity|]. split; [cbn [t_history]; rewrite seq_S, map_app, CH; reflexivity|]. split; [reflexivity|]. cbn [t_best t_best_epoch t_saved]. apply (best_ok_S n e b _ _ _ Hn CB).
    - destruct (differs (rr (S n)) (t_prev t)) eqn:ED; [reflexivity|]. cbn [andb]. rewrite (D3 eq_refl). symmetry. unfold reached_limit. apply Z.leb_gt. exact HL.
    - destruct (differs (rr (S n)) (t_prev t)) eqn:ED; cbn [andb]; [intros ->; reflexivity|]. intros _. rewrite HP. symmetry. now apply D2.
  Qed.
  Lemma mml_epoch_core limit n e b t : nth_error bs n = Some (e, b) -> core n t -> t_prev t = rr n ->
    core (S n) (fst (mml_epoch loss update c limit b e t)) /\
    snd (mml_epoch loss update c limit b e t) = reached_limit limit (drops rr (S n)) /\
    t_prev (fst (mml_epoch loss update c limit b e t)) = rr (S n).
  Proof.
    intros Hn HC HP. destruct (differs_drops n t HC HP) as (D1 & D2 & D3). destruct HC as (CW & CP & CH & CC & CB). destruct (rw_S n e b Hn) as (E1 & E2 & E3).
    unfold mml_epoch. cbv zeta. rewrite CW, CP, <- E3, <- E2. fold (rr n) (rr (S n)). rewrite <- E1, D1. cbn [fst snd t_prev].
    split; [|split].
    - split; [reflexivity|]. split; [reflexivity|]. split; [cbn [t_history]; rewrite seq_S, map_app, CH; reflexivity|]. split; [reflexivity|]. cbn [t_best t_best_epoch t_saved]. apply (best_ok_S n e b _ _ _ Hn CB).
    - reflexivity.
    - destruct (differs (rr (S n)) (t_prev t)) eqn:ED; [reflexivity|]. rewrite HP. symmetry. now apply D2.
  Qed.
  (** Any loop over [bs] whose body behaves like that. *)
  Lemma run_loop limit body : (1 <= limit)%Z ->
    (forall n e b t, nth_error bs n = Some (e, b) -> core n t -> t_prev t = rr n -> (Z.of_nat (drops rr n) < limit)%Z ->
      core (S n) (fst (body (e, b) t)) /\ snd (body (e, b) t) = reached_limit limit (drops rr (S n)) /\ (snd (body (e, b) t) = false -> t_prev (fst (body (e, b) t)) = rr (S n))) ->
    exists N, (N <= length bs)%nat /\ core N (for_loop body bs (t_start lr w0)) /\ (forall n, (n < N)%nat -> (Z.of_nat (drops rr n) < limit)%Z) /\
      ((N < length bs)%nat -> Z.of_nat (drops rr N) = limit) /\ (Z.of_nat (drops rr N) <= limit)%Z.
  Proof.
    intros HL HB. destruct (for_loop_spec body bs (t_start lr w0)) as (N & HN & HE & HF & HS). exists N. split; [exact HN|]. rewrite HE.
    assert (G : forall n, (n <= N)%nat -> core n (steps body (firstn n bs) (t_start lr w0)) /\ ((n < N)%nat -> (Z.of_nat (drops rr n) < limit)%Z /\ t_prev (steps body (firstn n bs) (t_start lr w0)) = rr n) /\ (Z.of_nat (drops rr n) <= limit)%Z /\
      (forall k x, n = S k -> nth_error bs k = Some x -> snd (body x (steps body (firstn k bs) (t_start lr w0))) = reached_limit limit (drops rr n))).
    { induction n as [|n IH]; intros Hn.
      - split; [exact core_0|]. split; [intros _; split; [cbn; lia|reflexivity]|]. split; [cbn; lia|]. intros; lia.
      - destruct IH as (I1 & I2 & I3 & _); [lia|]. destruct (I2 ltac:(lia)) as [I4 I5]. assert (HX : exists x, nth_error bs n = Some x) by (destruct (nth_error bs n) eqn:E; [eauto|apply nth_error_None in E; lia]).
        destruct HX as [[e b] Hx]. destruct (HB n e b _ Hx I1 I5 I4) as (J1 & J2 & J3). rewrite (steps_S body bs _ n (e, b) Hx). split; [exact J1|]. 
        assert (DL : (Z.of_nat (drops rr (S n)) <= limit)%Z) by (rewrite drops_S; destruct (Req_EM_T _ _); lia).
        split; [|split; [exact DL|]].
        + intros Hlt. pose proof (HF n (e, b) Hlt Hx) as HB0. rewrite HB0 in J2. split; [|exact (J3 HB0)]. symmetry in J2. unfold reached_limit in J2. apply Z.leb_gt in J2. exact J2.
        + intros k x Hk Hkx. assert (k = n) by lia. subst k. assert (x = (e, b)) by congruence. subst x. exact J2. }
    destruct (G N (le_n N)) as (G1 & _ & G3 & G4). split; [exact G1|]. split; [intros n Hn; now apply (G n); [lia|]|]. split; [|exact G3].
    intros Hlt. destruct (HS Hlt) as (n & x & EN & Hx & HB1). pose proof (G4 n x EN Hx) as Hr. rewrite HB1 in Hr. symmetry in Hr. unfold reached_limit in Hr. apply Z.leb_le in Hr. lia.
  Qed.
End Run.

Lemma jml_batch_low {W B} (loss : B -> W -> fl) update c limit e b t : (limit <= 0)%Z -> jml_batch loss update c limit e b t = jml_batch loss update c 1 e b t.
Proof.
  intros HL. unfold jml_batch. cbv zeta. destruct (differs _ _); [|reflexivity]. cbn [andb]. unfold reached_limit.
  replace (limit <=? Z.of_nat (S (t_count t)))%Z with true by (symmetry; apply Z.leb_le; lia). replace (1 <=? Z.of_nat (S (t_count t)))%Z with true by (symmetry; apply Z.leb_le; lia). reflexivity.
Qed.
Lemma jml_low {W B} (loss : B -> W -> fl) update c limit max_epochs batches t : (limit <= 0)%Z ->
  jml_loop loss update c limit max_epochs batches t = jml_loop loss update c 1 (Z.min 1 max_epochs) batches t.
Proof.
  intros HL. unfold jml_loop, range. destruct (Z_le_gt_dec max_epochs 0) as [H0|H0].
  - replace (Z.to_nat max_epochs) with 0%nat by lia. replace (Z.to_nat (Z.min 1 max_epochs)) with 0%nat by lia. reflexivity.
  - replace (Z.to_nat (Z.min 1 max_epochs)) with 1%nat by lia. destruct (Z.to_nat max_epochs) as [|k] eqn:E; [lia|]. cbn [seq for_loop].
    rewrite (for_loop_ext (jml_batch loss update c limit 0) (jml_batch loss update c 1 0)) by (intros; now apply jml_batch_low).
    unfold reached_limit at 1. replace (limit <=? _)%Z with true by (symmetry; apply Z.leb_le; lia). now destruct (reached_limit 1 _).
Qed.
Lemma jml_flat {W B} (loss : B -> W -> fl) update c limit max_epochs batches lr w : (1 <= limit)%Z ->
  jml_loop loss update c limit max_epochs batches (t_start lr w) =
  for_loop (fun eb t => jml_batch loss update c limit (fst eb) (snd eb) t) (flat (fun _ => batches) (range max_epochs)) (t_start lr w).
Proof.
  intros HL. unfold jml_loop. apply (nested (jml_batch loss update c limit) (fun t => reached_limit limit (t_count t)) (fun _ => batches)).
  - intros e b s Hs. unfold jml_batch. cbv zeta. cbn [fst snd t_count]. destruct (differs _ _); [reflexivity|]. cbn [andb]. now rewrite Hs.
  - cbn. unfold reached_limit. apply Z.leb_gt. lia.
Qed.
Lemma flat_single {B} (b : B) es : flat (fun _ => [b]) es = map (fun e => (e, b)) es.
Proof. unfold flat. cbn [map]. induction es as [|e es IH]; [reflexivity|]. cbn [map concat app]. now rewrite IH. Qed.
Lemma mml_flat {W B} (loss : B -> W -> fl) update c limit max_epochs data t :
  mml_loop loss update c limit max_epochs data t = for_loop (fun eb t => mml_epoch loss update c limit (snd eb) (fst eb) t) (flat (fun _ => [data]) (range max_epochs)) t.
Proof. unfold mml_loop. rewrite flat_single, for_loop_map. reflexivity. Qed.

Lemma result_spec {W B} (loss : B -> W -> fl) update c lr w0 bs N t : core loss update c lr w0 bs N t ->
  let w := rw loss update c lr w0 bs in let r := rr loss update c lr w0 bs in let l := rl loss update c lr w0 bs in
  tr_history (t_result t) = map l (seq 0 N) /\
  ((exists i b, first_lowest l N i /\ nth_error bs i = Some (tr_best_epoch (t_result t), b) /\ tr_w (t_result t) = w (S i) /\ tr_lr (t_result t) = r (S i)) \/
   ((forall m, (m < N)%nat -> ~ lower (l m) (Some PInf)) /\ tr_best_epoch (t_result t) = 0%nat /\ tr_w (t_result t) = w N /\ tr_lr (t_result t) = r N)).
Proof.
  intros (CW & CP & CH & CC & CB) w r l. unfold t_result. destruct CB as [(-> & _ & E & HL)|(i & b & HI & _ & -> & HE)]; cbn [tr_history tr_best_epoch tr_w tr_lr].
  - split; [exact CH|]. right. split; [exact HL|]. split; [exact E|]. split; [exact CW|]. unfold r, rr. now rewrite CP.
  - split; [exact CH|]. left. exists i, b. split; [exact HI|]. split; [exact HE|]. split; reflexivity.
Qed.
