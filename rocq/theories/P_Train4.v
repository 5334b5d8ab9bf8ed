(** Training in intervals: autoencoders and the fitted transformations. *)
From Verif Require Import Base BaseFacts RBase RFacts M_Lik M_Est M_Stat M_Train S_Train P_Train1 P_Train2.
Local Open Scope R_scope.

Lemma evaluated_S i n : (1 <= i)%nat ->
  if due i (S n) then evaluated i (S n) = S (evaluated i n) /\ S n = evaluation_time i (evaluated i n) /\ (i <= S n)%nat else evaluated i (S n) = evaluated i n.
Proof.
  intros Hi. unfold due, evaluated, evaluation_time. destruct (i =? 1)%nat eqn:E1.
  - apply Nat.eqb_eq in E1. subst i. rewrite Nat.mod_1_r. cbn [Nat.eqb andb]. destruct n as [|n]; cbn; lia.
  - apply Nat.eqb_neq in E1. pose proof (Nat.div_mod n i ltac:(lia)) as D. pose proof (Nat.mod_upper_bound n i ltac:(lia)) as U.
    destruct (Nat.eq_dec (S (n mod i)) i) as [E|E].
    + assert (S n = i * S (n / i))%nat by (rewrite Nat.mul_succ_r; lia). assert (HD : (S n / i = S (n / i))%nat) by (symmetry; apply (Nat.div_unique _ _ _ 0); lia). assert (HM : (S n mod i = 0)%nat) by (symmetry; apply (Nat.mod_unique _ _ (S (n / i))); lia).
      rewrite HM. cbn [Nat.eqb andb]. destruct n as [|n]; [cbn in H; destruct (0 / i)%nat; lia|]. cbn [negb Nat.eqb]. rewrite HD. split; [reflexivity|]. split; [rewrite Nat.mul_comm, Nat.add_1_r; exact H|]. rewrite Nat.mul_succ_r in H. lia.
    + assert (HD : (S n / i = n / i)%nat) by (symmetry; apply (Nat.div_unique _ _ _ (S (n mod i))); lia). assert (HM : (S n mod i = S (n mod i))%nat) by (symmetry; apply (Nat.mod_unique _ _ (n / i)); lia).
      rewrite HM. cbn [Nat.eqb andb]. exact HD.
Qed.

Section ARun.
  Context {W B : Type}.
  Variables (loss : B -> W -> fl) (update : B -> R -> W -> W) (c : schedule) (lr : R) (w0 : W) (interval : nat) (bs : list B).
  Hypothesis Hint : (1 <= interval)%nat.
  Definition last_k {A} (k : nat) (l : list A) : list A := skipn (length l - k) l.
  Fixpoint arun (n : nat) : W * plateau * list fl :=
    match n with
    | O => (w0, plateau_new lr, [])
    | S n' => let '(w, p, h) := arun n' in
              match nth_error bs n' with
              | Some b => (update b (pl_lr p) w, if due interval (S n') then plateau_step c p (fmean (last_k interval (h ++ [loss b w]))) else p, h ++ [loss b w])
              | None => (w, if due interval (S n') then plateau_step c p (fmean (last_k interval (h ++ [None]))) else p, h ++ [None])
              end
    end.
  Definition aw n := fst (fst (arun n)).
  Definition ap n := snd (fst (arun n)).
  Definition al (n : nat) : fl := match nth_error bs n with Some b => loss b (aw n) | None => None end.
  Definition mu (k : nat) : fl := fmean (map al (seq (evaluation_time interval k - interval) interval)).
  Definition ar (k : nat) : R := pl_lr (pl c lr mu k).
  Lemma arun_h n : snd (arun n) = map al (seq 0 n).
  Proof.
    induction n as [|n IH]; [reflexivity|]. rewrite seq_S, map_app, <- IH. cbn [map Nat.add]. unfold al, aw. cbn [arun]. destruct (arun n) as [[w p] h]. destruct (nth_error bs n); reflexivity.
  Qed.
  Lemma last_k_seq n : last_k interval (map al (seq 0 n)) = map al (seq (n - interval) (Nat.min n interval)).
  Proof.
    unfold last_k. rewrite map_length, seq_length, skipn_map. f_equal. apply nth_error_ext. intros i. rewrite nth_error_skipn_add. destruct (lt_dec i (Nat.min n interval)).
    - rewrite !nth_error_seq by lia. f_equal; lia.
    - rewrite !(proj2 (nth_error_None _ _)); [reflexivity| |]; rewrite seq_length; lia.
  Qed.
  Lemma arun_S n b : nth_error bs n = Some b -> aw (S n) = update b (pl_lr (ap n)) (aw n) /\
    ap (S n) = (if due interval (S n) then plateau_step c (ap n) (mu (evaluated interval n)) else ap n) /\ al n = loss b (aw n).
  Proof.
    intros H. pose proof (arun_h n) as Hh. pose proof (evaluated_S interval n Hint) as HE. assert (Ha : al n = loss b (aw n)) by (unfold al; now rewrite H).
    split; [|split; [|exact Ha]]; unfold aw, ap in *; cbn [arun]; destruct (arun n) as [[w p] h]; rewrite H; cbn [fst snd] in *; [reflexivity|].
    destruct (due interval (S n)); [|reflexivity]. destruct HE as (_ & E & Hle). f_equal. unfold mu. f_equal. rewrite <- Ha, Hh. change ([al n]) with (map al [n]). rewrite <- map_app. change [n] with [(0 + n)%nat]. rewrite <- seq_S, last_k_seq. rewrite <- E. f_equal. f_equal. lia.
  Qed.
  Lemma ap_pl n : (n <= length bs)%nat -> ap n = pl c lr mu (evaluated interval n).
  Proof.
    induction n as [|n IH]; intros Hn; [unfold evaluated; cbn; destruct (interval =? 1)%nat; [|rewrite Nat.div_0_l by lia]; reflexivity|].
    destruct (nth_error bs n) as [b|] eqn:E; [|apply nth_error_None in E; lia]. destruct (arun_S n b E) as (_ & -> & _). pose proof (evaluated_S interval n Hint) as HE. rewrite IH by lia.
    destruct (due interval (S n)); [destruct HE as (-> & _); reflexivity|now rewrite HE].
  Qed.
  Definition window n := map al (seq (n - interval) (Nat.min n interval)).
  Lemma push_window n : push interval (window n) (al n) = window (S n).
  Proof.
    unfold push, window. assert (E : map al (seq (n - interval) (Nat.min n interval)) ++ [al n] = map al (seq (n - interval) (S (Nat.min n interval)))).
    { rewrite seq_S, map_app. cbn [map]. do 3 f_equal. lia. }
    cbv zeta. rewrite E, map_length, seq_length. destruct (interval <? S (Nat.min n interval))%nat eqn:EL.
    - apply Nat.ltb_lt in EL. cbn [seq map tl]. f_equal. f_equal; lia.
    - apply Nat.ltb_ge in EL. f_equal. f_equal; lia.
  Qed.
  Definition abest (k : nat) (best : fl) (iteration : nat) (saved : option (W * R)) : Prop :=
    (saved = None /\ best = Some PInf /\ iteration = 0%nat /\ forall m, (m < k)%nat -> ~ lower (mu m) (Some PInf)) \/
    (exists i, first_lowest mu k i /\ best = mu i /\ saved = Some (aw (evaluation_time interval i), ar (S i)) /\ iteration = evaluation_time interval i).
  Lemma abest_S k best iteration saved : abest k best iteration saved ->
    abest (S k) (if flt (mu k) best then mu k else best) (if flt (mu k) best then evaluation_time interval k else iteration)
          (if flt (mu k) best then Some (aw (evaluation_time interval k), ar (S k)) else saved).
  Proof.
    intros [(-> & -> & -> & HL)|(i & (Hi & HP & HM & HF) & -> & -> & ->)].
    - destruct (flt (mu k) (Some PInf)) eqn:E.
      + right. exists k. apply flt_lower in E. split; [|split; [reflexivity|split; reflexivity]]. split; [lia|]. split; [exact E|]. split.
        * intros m Hm Hl. destruct (Nat.eq_dec m k) as [->|]; [exact (lower_irrefl _ Hl)|]. apply (HL m); [lia|]. exact (lower_trans _ _ _ Hl E).
        * intros m Hm. specialize (HL m Hm). destruct (mu m) as [[x| |]|]; [cbn in HL; tauto|cbn in HL; tauto| |now left]. right. destruct (mu k) as [[y| |]|]; cbn in *; tauto.
      + left. apply flt_lower_false in E. split; [reflexivity|]. split; [reflexivity|]. split; [reflexivity|]. intros m Hm. destruct (Nat.eq_dec m k) as [->|]; [exact E|apply HL; lia].
    - right. destruct (flt (mu k) (mu i)) eqn:E.
      + apply flt_lower in E. exists k. split; [|split; [reflexivity|split; reflexivity]]. split; [lia|]. split; [exact (lower_trans _ _ _ E HP)|]. split.
        * intros m Hm Hl. destruct (Nat.eq_dec m k) as [->|]; [exact (lower_irrefl _ Hl)|]. apply (HM m); [lia|]. exact (lower_trans _ _ _ Hl E).
        * intros m Hm. specialize (HM m Hm). destruct (mu m) as [[x| |]|], (mu k) as [[y| |]|], (mu i) as [[z| |]|]; cbn in *; try tauto; try (right; lra).
      + apply flt_lower_false in E. exists i. split; [|split; [reflexivity|split; reflexivity]]. split; [lia|]. split; [exact HP|]. split; [|exact HF].
        intros m Hm. destruct (Nat.eq_dec m k) as [->|]; [exact E|apply HM; lia].
  Qed.
  Definition acore (n : nat) (a : astate (W:=W)) : Prop :=
    a_w a = aw n /\ a_plateau a = ap n /\ a_total a = n /\ a_window a = window n /\ a_history a = map mu (seq 0 (evaluated interval n)) /\
    a_count a = drops ar (evaluated interval n) /\ abest (evaluated interval n) (a_best a) (a_best_iteration a) (a_saved a).
  Lemma evaluated_0 : evaluated interval 0 = 0%nat.
  Proof. unfold evaluated. destruct (interval =? 1)%nat; [reflexivity|apply Nat.div_0_l; lia]. Qed.
  Lemma acore_0 : acore 0 (a_start lr w0).
  Proof.
    unfold acore. rewrite evaluated_0. split; [reflexivity|]. split; [reflexivity|]. split; [reflexivity|]. split; [unfold window; reflexivity|]. split; [reflexivity|]. split; [reflexivity|]. left. split; [reflexivity|]. split; [reflexivity|]. split; [reflexivity|]. intros; lia.
  Qed.
  (** One batch that is used and has a loss. *)
  Definition ae_used (limit : Z) (b : B) (a : astate) : astate * bool :=
    let l := loss b (a_w a) in
    let w' := update b (pl_lr (a_plateau a)) (a_w a) in
    let total := S (a_total a) in
    let window := push interval (a_window a) l in
    if due interval total
    then
      let mean := fmean window in
      let p' := plateau_step c (a_plateau a) mean in
      let changed := differs (pl_lr (a_plateau a)) (pl_lr p') in
      let count := if changed then S (a_count a) else a_count a in
      let better := flt mean (a_best a) in
      (AState w' p' total window (a_history a ++ [mean])
                (if better then mean else a_best a) (if better then total else a_best_iteration a)
                (if better then Some (w', pl_lr p') else a_saved a) count, reached_limit limit count)
    else (AState w' (a_plateau a) total window (a_history a) (a_best a) (a_best_iteration a) (a_saved a) (a_count a), false).
  Lemma ae_used_core limit n b a : nth_error bs n = Some b -> acore n a -> (Z.of_nat (a_count a) < limit)%Z ->
    acore (S n) (fst (ae_used limit b a)) /\ snd (ae_used limit b a) = reached_limit limit (drops ar (evaluated interval (S n))).
  Proof.
    intros Hn (CW & CP & CT & CWi & CH & CC & CB) HL. destruct (arun_S n b Hn) as (E1 & E2 & E3). pose proof (evaluated_S interval n Hint) as HE.
    assert (Hlen : (S n <= length bs)%nat) by (apply nth_error_Some; congruence). pose proof (ap_pl n ltac:(lia)) as P0. pose proof (ap_pl (S n) Hlen) as P1.
    unfold ae_used. cbv zeta. rewrite CW, CP, CT, CWi, <- E3, push_window, <- E1. destruct (due interval (S n)).
    - destruct HE as (HE & HT & Hle). assert (EM : fmean (window (S n)) = mu (evaluated interval n)) by (unfold mu, window; rewrite <- HT; do 3 f_equal; lia).
      rewrite EM, <- E2. cbn [fst snd]. assert (EC : (if differs (pl_lr (ap n)) (pl_lr (ap (S n))) then S (a_count a) else a_count a) = drops ar (evaluated interval (S n))).
      { rewrite HE, drops_S, CC. unfold ar. rewrite <- HE, <- P0, <- P1. unfold differs. destruct (Req_EM_T (pl_lr (ap n)) (pl_lr (ap (S n)))), (Req_EM_T (pl_lr (ap (S n))) (pl_lr (ap n))); try congruence; lia. }
      rewrite EC. split; [|reflexivity]. unfold acore. cbn [a_w a_plateau a_total a_window a_history a_count a_best a_best_iteration a_saved]. split; [reflexivity|]. split; [reflexivity|]. split; [reflexivity|]. split; [reflexivity|].
      split; [rewrite HE, seq_S, map_app, CH; reflexivity|]. split; [reflexivity|]. rewrite HE. pose proof (abest_S _ _ _ _ CB) as HB. rewrite <- HT in HB. unfold ar in HB. rewrite <- HE, <- P1 in HB. rewrite HE in HB. exact HB.
    - cbn [fst snd]. split.
      + unfold acore. rewrite HE. cbn [a_w a_plateau a_total a_window a_history a_count a_best a_best_iteration a_saved]. split; [reflexivity|]. split; [now rewrite E2|]. split; [reflexivity|]. split; [reflexivity|]. split; [exact CH|]. split; [exact CC|exact CB].
      + rewrite HE, <- CC. symmetry. unfold reached_limit. apply Z.leb_gt. exact HL.
  Qed.
  (** The loop over used batches, with the NaN flag. *)
  Definition ae_step (limit : Z) (b : B) (s : astate * bool) : astate * bool * bool :=
    if is_none (loss b (a_w (fst s))) then (fst s, true, true)
    else let '(a', brk) := ae_used limit b (fst s) in (a', false, brk).
  Lemma ae_steps limit : (1 <= limit)%Z ->
    exists N, (N <= length bs)%nat /\ acore N (fst (for_loop (ae_step limit) bs (a_start lr w0, false))) /\
      (forall n, (n < N)%nat -> al n <> None /\ (Z.of_nat (drops ar (evaluated interval n)) < limit)%Z) /\
      ((N < length bs)%nat -> al N = None \/ Z.of_nat (drops ar (evaluated interval N)) = limit) /\ (Z.of_nat (drops ar (evaluated interval N)) <= limit)%Z.
  Proof.
    intros HL.
    assert (G : forall rest done a, bs = done ++ rest -> acore (length done) a -> (Z.of_nat (a_count a) < limit)%Z ->
      (forall n, (n < length done)%nat -> al n <> None /\ (Z.of_nat (drops ar (evaluated interval n)) < limit)%Z) ->
      exists N, (N <= length bs)%nat /\ acore N (fst (for_loop (ae_step limit) rest (a, false))) /\ (forall n, (n < N)%nat -> al n <> None /\ (Z.of_nat (drops ar (evaluated interval n)) < limit)%Z) /\
      ((N < length bs)%nat -> al N = None \/ Z.of_nat (drops ar (evaluated interval N)) = limit) /\ (Z.of_nat (drops ar (evaluated interval N)) <= limit)%Z).
    { induction rest as [|b rest IH]; intros done a Hbs HC HCt Hbefore.
      - rewrite app_nil_r in Hbs. subst done. exists (length bs). split; [lia|]. split; [exact HC|]. split; [exact Hbefore|]. split; [lia|]. destruct HC as (_ & _ & _ & _ & _ & CC & _). rewrite <- CC. lia.
      - assert (Hn : nth_error bs (length done) = Some b) by (rewrite Hbs, nth_error_app2, Nat.sub_diag by lia; reflexivity). assert (Hlen : (length done < length bs)%nat) by (apply nth_error_Some; congruence).
        assert (HA : al (length done) = loss b (a_w a)) by (destruct (arun_S _ b Hn) as (_ & _ & ->); f_equal; symmetry; apply HC).
        assert (HCC : a_count a = drops ar (evaluated interval (length done))) by apply HC.
        cbn [for_loop]. unfold ae_step at 1. cbn [fst]. destruct (loss b (a_w a)) as [x|] eqn:EL; cbn [is_none].
        + destruct (ae_used_core limit (length done) b a Hn HC HCt) as [J1 J2]. destruct (ae_used limit b a) as [a' brk]. cbn [fst snd] in J1, J2.
          assert (Hbefore' : forall n, (n < S (length done))%nat -> al n <> None /\ (Z.of_nat (drops ar (evaluated interval n)) < limit)%Z).
          { intros n Hlt. destruct (Nat.eq_dec n (length done)) as [->|]; [|apply Hbefore; lia]. split; [congruence|]. now rewrite <- HCC. }
          assert (HD : (Z.of_nat (drops ar (evaluated interval (S (length done)))) <= limit)%Z).
          { pose proof (evaluated_S interval (length done) Hint) as HE. destruct (due interval (S (length done))); [destruct HE as (-> & _); rewrite drops_S; destruct (Req_EM_T _ _); lia|rewrite HE; lia]. }
          destruct brk.
          * exists (S (length done)). split; [lia|]. split; [exact J1|]. split; [exact Hbefore'|]. split; [intros _; right|exact HD]. symmetry in J2. unfold reached_limit in J2. apply Z.leb_le in J2. lia.
          * apply (IH (done ++ [b])); [rewrite <- app_assoc; exact Hbs|rewrite app_length, Nat.add_1_r; exact J1| |rewrite app_length, Nat.add_1_r; exact Hbefore'].
            destruct J1 as (_ & _ & _ & _ & _ & -> & _). symmetry in J2. unfold reached_limit in J2. apply Z.leb_gt in J2. exact J2.
        + exists (length done). split; [lia|]. split; [exact HC|]. split; [exact Hbefore|]. split; [intros _; left; exact HA|]. lia. }
    apply (G bs []); [reflexivity|exact acore_0|cbn; lia|cbn; intros; lia].
  Qed.
  Lemma a_result_spec n a : acore n a ->
    tr_history (a_result a) = map mu (seq 0 (evaluated interval n)) /\
    ((exists i, first_lowest mu (evaluated interval n) i /\ tr_best_epoch (a_result a) = evaluation_time interval i /\ tr_w (a_result a) = aw (evaluation_time interval i) /\ tr_lr (a_result a) = ar (S i)) \/
     ((forall m, (m < evaluated interval n)%nat -> ~ lower (mu m) (Some PInf)) /\ tr_best_epoch (a_result a) = 0%nat /\ tr_w (a_result a) = aw n)).
  Proof.
    intros (CW & CP & CT & CWi & CH & CC & CB). unfold a_result. destruct CB as [(-> & _ & E & HL)|(i & HI & _ & -> & E)]; cbn [tr_history tr_best_epoch tr_w tr_lr].
    - split; [exact CH|]. right. auto.
    - split; [exact CH|]. left. exists i. auto.
  Qed.
  (** ** Flow and linking *)
  Definition fcore (n : nat) (f : fstate (W:=W)) : Prop :=
    f_w f = aw n /\ f_plateau f = ap n /\ f_total f = n /\ f_window f = window n /\ f_lr f = pl_lr (ap n) /\ f_count f = drops ar (evaluated interval n).
  Definition flow_used (limit : Z) (b : B) (f : fstate) : fstate * bool :=
    let l := loss b (f_w f) in
    let w' := update b (pl_lr (f_plateau f)) (f_w f) in
    let total := S (f_total f) in
    let window := push interval (f_window f) l in
    let p' := if due interval total then plateau_step c (f_plateau f) (fmean window) else f_plateau f in
    let changed := differs (f_lr f) (pl_lr p') in
    let count := if changed then S (f_count f) else f_count f in
    (FState w' p' total window (if changed then pl_lr p' else f_lr f) count false, reached_limit limit count).
  Definition flow_step (limit : Z) (b : B) (f : fstate) : fstate * bool :=
    if is_none (loss b (f_w f)) then (FState (f_w f) (f_plateau f) (f_total f) (f_window f) (f_lr f) (f_count f) true, true) else flow_used limit b f.
  Lemma fcore_0 : fcore 0 (f_start lr w0).
  Proof. unfold fcore. rewrite evaluated_0. split; [reflexivity|]. split; [reflexivity|]. split; [reflexivity|]. split; [reflexivity|]. split; reflexivity. Qed.
  Lemma flow_used_core limit n b f : nth_error bs n = Some b -> fcore n f ->
    fcore (S n) (fst (flow_used limit b f)) /\ snd (flow_used limit b f) = reached_limit limit (drops ar (evaluated interval (S n))).
  Proof.
    intros Hn (CW & CP & CT & CWi & CL & CC). destruct (arun_S n b Hn) as (E1 & E2 & E3). pose proof (evaluated_S interval n Hint) as HE.
    assert (Hlen : (S n <= length bs)%nat) by (apply nth_error_Some; congruence). pose proof (ap_pl n ltac:(lia)) as P0. pose proof (ap_pl (S n) Hlen) as P1.
    assert (EP : (if due interval (S n) then plateau_step c (ap n) (fmean (window (S n))) else ap n) = ap (S n)).
    { rewrite E2. destruct (due interval (S n)); [|reflexivity]. destruct HE as (_ & HT & Hle). f_equal. unfold mu, window. rewrite <- HT. do 3 f_equal. lia. }
    unfold flow_used. cbv zeta. rewrite CW, CP, CT, CWi, CL, CC, <- E3, push_window, <- E1, EP. cbn [fst snd].
    assert (EC : (if differs (pl_lr (ap n)) (pl_lr (ap (S n))) then S (drops ar (evaluated interval n)) else drops ar (evaluated interval n)) = drops ar (evaluated interval (S n))).
    { destruct (due interval (S n)).
      - destruct HE as (HE & _). rewrite HE, drops_S. unfold ar. rewrite <- HE, <- P0, <- P1. unfold differs. destruct (Req_EM_T (pl_lr (ap n)) (pl_lr (ap (S n)))), (Req_EM_T (pl_lr (ap (S n))) (pl_lr (ap n))); try congruence; lia.
      - rewrite HE, <- EP. unfold differs. destruct (Req_EM_T _ _); congruence. }
    rewrite EC. split; [|reflexivity]. unfold fcore. cbn [f_w f_plateau f_total f_window f_lr f_count]. split; [reflexivity|]. split; [reflexivity|]. split; [reflexivity|]. split; [reflexivity|]. split; [|reflexivity].
    unfold differs. destruct (Req_EM_T _ _) as [E|E]; [exact E|reflexivity].
  Qed.
  Lemma flow_steps limit : (1 <= limit)%Z ->
    exists N, (N <= length bs)%nat /\ fcore N (for_loop (flow_step limit) bs (f_start lr w0)) /\
      (forall n, (n < N)%nat -> al n <> None /\ (Z.of_nat (drops ar (evaluated interval n)) < limit)%Z) /\
      ((N < length bs)%nat -> al N = None \/ Z.of_nat (drops ar (evaluated interval N)) = limit) /\ (Z.of_nat (drops ar (evaluated interval N)) <= limit)%Z.
  Proof.
    intros HL.
    assert (G : forall rest done a, bs = done ++ rest -> fcore (length done) a -> (Z.of_nat (f_count a) < limit)%Z ->
      (forall n, (n < length done)%nat -> al n <> None /\ (Z.of_nat (drops ar (evaluated interval n)) < limit)%Z) ->
      exists N, (N <= length bs)%nat /\ fcore N (for_loop (flow_step limit) rest a) /\ (forall n, (n < N)%nat -> al n <> None /\ (Z.of_nat (drops ar (evaluated interval n)) < limit)%Z) /\
      ((N < length bs)%nat -> al N = None \/ Z.of_nat (drops ar (evaluated interval N)) = limit) /\ (Z.of_nat (drops ar (evaluated interval N)) <= limit)%Z).
    { induction rest as [|b rest IH]; intros done a Hbs HC HCt Hbefore.
      - rewrite app_nil_r in Hbs. subst done. exists (length bs). split; [lia|]. split; [exact HC|]. split; [exact Hbefore|]. split; [lia|]. destruct HC as (_ & _ & _ & _ & _ & CC). rewrite <- CC. lia.
      - assert (Hn : nth_error bs (length done) = Some b) by (rewrite Hbs, nth_error_app2, Nat.sub_diag by lia; reflexivity). assert (Hlen : (length done < length bs)%nat) by (apply nth_error_Some; congruence).
        assert (HA : al (length done) = loss b (f_w a)) by (destruct (arun_S _ b Hn) as (_ & _ & ->); f_equal; symmetry; apply HC).
        assert (HCC : f_count a = drops ar (evaluated interval (length done))) by apply HC.
        cbn [for_loop]. unfold flow_step at 1. destruct (loss b (f_w a)) as [x|] eqn:EL; cbn [is_none].
        + destruct (flow_used_core limit (length done) b a Hn HC) as [J1 J2]. destruct (flow_used limit b a) as [a' brk]. cbn [fst snd] in J1, J2.
          assert (Hbefore' : forall n, (n < S (length done))%nat -> al n <> None /\ (Z.of_nat (drops ar (evaluated interval n)) < limit)%Z).
          { intros n Hlt. destruct (Nat.eq_dec n (length done)) as [->|]; [|apply Hbefore; lia]. split; [congruence|]. now rewrite <- HCC. }
          assert (HD : (Z.of_nat (drops ar (evaluated interval (S (length done)))) <= limit)%Z).
          { pose proof (evaluated_S interval (length done) Hint) as HE. destruct (due interval (S (length done))); [destruct HE as (-> & _); rewrite drops_S; destruct (Req_EM_T _ _); lia|rewrite HE; lia]. }
          destruct brk.
          * exists (S (length done)). split; [lia|]. split; [exact J1|]. split; [exact Hbefore'|]. split; [intros _; right|exact HD]. symmetry in J2. unfold reached_limit in J2. apply Z.leb_le in J2. lia.
          * apply (IH (done ++ [b])); [rewrite <- app_assoc; exact Hbs|rewrite app_length, Nat.add_1_r; exact J1| |rewrite app_length, Nat.add_1_r; exact Hbefore'].
            destruct J1 as (_ & _ & _ & _ & _ & ->). symmetry in J2. unfold reached_limit in J2. apply Z.leb_gt in J2. exact J2.
        + exists (length done). split; [lia|]. split; [exact HC|]. split; [exact Hbefore|]. split; [intros _; left; exact HA|]. lia. }
    apply (G bs []); [reflexivity|exact fcore_0|cbn; lia|cbn; intros; lia].
  Qed.
End ARun.
