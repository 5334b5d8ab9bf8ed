(** The nested training loops with intervals as one loop. *)
From Verif Require Import Base BaseFacts RBase RFacts M_Lik M_Est M_Stat M_Train S_Train P_Train1 P_Train2 P_Train4.
Local Open Scope R_scope.

Lemma snd_flat {B} (loader : nat -> list B) es : map snd (flat loader es) = concat (map loader es).
Proof. unfold flat. induction es as [|e es IH]; [reflexivity|]. cbn [map concat]. rewrite map_app, IH, map_map. cbn [snd]. now rewrite map_id. Qed.
Lemma for_loop_filter {X St} (body : X -> St -> St * bool) (keep : X -> bool) l s :
  (forall x s, keep x = false -> body x s = (s, false)) -> for_loop body l s = for_loop body (filter keep l) s.
Proof.
  intros H. revert s. induction l as [|x l IH]; intros s; [reflexivity|]. cbn [for_loop filter]. destruct (keep x) eqn:E.
  - cbn [for_loop]. destruct (body x s) as [s' []]; [reflexivity|apply IH].
  - rewrite H by exact E. apply IH.
Qed.
Lemma for_loop_ext_in {X St} (b1 b2 : X -> St -> St * bool) l st : (forall x s, In x l -> b1 x s = b2 x s) -> for_loop b1 l st = for_loop b2 l st.
Proof. revert st; induction l as [|x l IH]; intros st H; [reflexivity|]. cbn [for_loop]. rewrite H by (now left). destruct (b2 x st) as [st' []]; [reflexivity|]. apply IH. intros; apply H; now right. Qed.

Section Flatten.
  Context {W B : Type}.
  Variables (loss : B -> W -> fl) (update : B -> R -> W -> W) (c : schedule) (limit : Z) (interval : nat).
  Hypothesis Hint : (1 <= interval)%nat.
  Lemma flow_flat max_epochs loader (f : fstate) : f_nan f = false -> reached_limit limit (f_count f) = false ->
    flow_loop loss update c limit max_epochs interval loader f = Ok (for_loop (flow_step loss update c interval limit) (concat (map loader (range max_epochs))) f).
  Proof.
    intros H1 H2. unfold flow_loop.
    rewrite (for_loop_r_ok _ (fun e f => let f' := for_loop (flow_step loss update c interval limit) (loader e) f in (f', (f_nan f' || reached_limit limit (f_count f'))%bool))).
    - f_equal. rewrite (nested (fun _ => flow_step loss update c interval limit) (fun f => (f_nan f || reached_limit limit (f_count f))%bool) loader).
      + rewrite <- snd_flat, for_loop_map. reflexivity.
      + intros _ b s _. unfold flow_step, flow_used. cbv zeta. destruct (is_none _); reflexivity.
      + now rewrite H1, H2.
    - intros e s. rewrite (for_loop_r_ok _ (flow_step loss update c interval limit)); [reflexivity|]. intros b t. unfold flow_batch, flow_step, flow_used. cbv zeta. destruct (is_none _); [reflexivity|]. destruct (interval =? 0)%nat eqn:E; [apply Nat.eqb_eq in E; lia|reflexivity].
  Qed.
  Variables (norm : bool) (small : B -> bool).
  Hypothesis Hloss : forall b w, loss b w <> Some NInf.
  Definition used (b : B) : bool := negb (small b && norm)%bool.
  Definition ae_any (b : B) (s : astate * bool) : astate * bool * bool := if used b then ae_step loss update c interval limit b s else (s, false).
  Definition astop (s : astate (W:=W) * bool) : bool := (snd s || reached_limit limit (a_count (fst s)))%bool.
  Lemma ae_inner bs : forall a acc, (exists x, acc = Some (Fin x)) \/ acc = Some PInf ->
    exists lr' acc', for_loop_r (ae_batch loss update c limit interval norm small) bs (a, pl_lr (a_plateau a), acc, false) =
      Ok (fst (for_loop ae_any bs (a, false)), lr', acc', snd (for_loop ae_any bs (a, false))) /\ ((exists x, acc' = Some (Fin x)) \/ acc' = Some PInf).
  Proof.
    induction bs as [|b bs IH]; intros a acc HA; [cbn; eauto|]. cbn [for_loop_r for_loop]. unfold ae_any at 1 3, used. unfold ae_batch at 1. destruct (small b && norm)%bool; cbn [negb bind]; [apply IH; exact HA|].
    unfold ae_step. cbn [fst]. destruct (loss b (a_w a)) as [x|] eqn:EL; cbn [is_none bind]; [|cbn [fst snd]; eauto].
    destruct (interval =? 0)%nat eqn:E; [apply Nat.eqb_eq in E; lia|].
    assert (HA' : (exists y, fadd acc (Some x) = Some (Fin y)) \/ fadd acc (Some x) = Some PInf).
    { pose proof (Hloss b (a_w a)) as HN. rewrite EL in HN. destruct HA as [[y ->]| ->], x as [z| |]; cbn; try congruence; eauto. }
    unfold ae_used. cbv zeta. rewrite EL. destruct (due interval (S (a_total a))).
    - cbn [bind]. destruct (reached_limit limit _); [cbn [fst snd]; eauto|].
      match goal with |- context [AState ?a1 ?a2 ?a3 ?a4 ?a5 ?a6 ?a7 ?a8 ?a9] => set (a' := AState a1 a2 a3 a4 a5 a6 a7 a8 a9) end.
      match goal with |- context [(a', ?r, fadd acc (Some x), false)] => replace r with (pl_lr (a_plateau a')) end; [apply IH; exact HA'|].
      unfold a'. cbn [a_plateau]. unfold differs. destruct (Req_EM_T _ _); [symmetry; assumption|reflexivity].
    - cbn [bind]. match goal with |- context [AState ?a1 ?a2 ?a3 ?a4 ?a5 ?a6 ?a7 ?a8 ?a9] => set (a' := AState a1 a2 a3 a4 a5 a6 a7 a8 a9) end.
      change (pl_lr (a_plateau a)) with (pl_lr (a_plateau a')). apply IH. exact HA'.
  Qed.
  Lemma ae_epoch_pure e_batches a : e_batches <> [] ->
    exists l, ae_epoch loss update c limit interval norm small e_batches a = Ok (fst (for_loop ae_any e_batches (a, false)), l) /\ is_none l = snd (for_loop ae_any e_batches (a, false)).
  Proof.
    intros HE. unfold ae_epoch. destruct (ae_inner e_batches a (Some (Fin 0))) as (lr' & acc' & -> & HA); [left; eauto|]. cbn [bind]. eexists. split; [reflexivity|]. destruct (snd _); [reflexivity|].
    destruct e_batches as [|b bs]; [congruence|]. cbn [length]. destruct HA as [[x ->]| ->]; reflexivity.
  Qed.
  Lemma ae_any_stop b s : astop s = false -> snd (ae_any b s) = astop (fst (ae_any b s)).
  Proof.
    intros Hs. unfold ae_any. destruct (used b); [|cbn [fst snd]; now rewrite Hs]. unfold ae_step. destruct (is_none _); [reflexivity|]. unfold astop in Hs. apply orb_false_iff in Hs. destruct Hs as [_ Hs].
    unfold ae_used. cbv zeta. destruct (due _ _); unfold astop; cbn [fst snd orb a_count]; [reflexivity|now rewrite Hs].
  Qed.
  Lemma ae_flat max_epochs loader a : (forall e, loader e <> []) -> reached_limit limit (a_count a) = false ->
    ae_loop loss update c limit max_epochs interval norm small loader a =
    Ok (fst (for_loop (ae_step loss update c interval limit) (filter used (concat (map loader (range max_epochs)))) (a, false))).
  Proof.
    intros HLd H0. unfold ae_loop.
    rewrite (for_loop_r_ok _ (fun e a => (fst (for_loop ae_any (loader e) (a, false)), astop (for_loop ae_any (loader e) (a, false))))).
    2:{ intros e s. destruct (ae_epoch_pure (loader e) s (HLd e)) as (l & -> & E). cbn [bind]. now rewrite E. }
    f_equal. transitivity (fst (for_loop (fun e s => let s' := for_loop ae_any (loader e) s in (s', astop s')) (range max_epochs) (a, false))).
    - generalize (range max_epochs). intros es. revert a H0. induction es as [|e es IH]; intros a H0; [reflexivity|]. cbn [for_loop]. destruct (astop (for_loop ae_any (loader e) (a, false))) eqn:E; [reflexivity|].
      unfold astop in E. apply orb_false_iff in E. destruct E as [E1 E2]. destruct (for_loop ae_any (loader e) (a, false)) as [a' nan]. cbn [fst snd] in *. subst nan. now apply IH.
    - f_equal. rewrite (nested (fun _ => ae_any) astop loader); [|intros _ b s; apply ae_any_stop|unfold astop; cbn [fst snd orb]; exact H0].
      rewrite <- (for_loop_map snd ae_any), snd_flat. rewrite (for_loop_filter ae_any used); [|intros x s E; unfold ae_any; now rewrite E].
      apply for_loop_ext_in. intros x s Hx. apply filter_In in Hx. destruct Hx as [_ Hx]. unfold ae_any. now rewrite Hx.
  Qed.
End Flatten.
