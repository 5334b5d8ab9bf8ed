(** Lemmas: parameters that start alike stay alike. *)
From Verif Require Import Base BaseFacts RBase RFacts M_Data M_CV M_Logit M_Lik M_Est M_Stat M_Train M_Mix M_Quad M_Adam S_Logit S_Est S_Sym S_Twin.
Import List.
Local Open Scope R_scope.

Lemma nth_zip_with {A B C} (f : A -> B -> C) l l' k x y z : (k < length l)%nat -> (k < length l')%nat -> nth k (zip_with f l l') z = f (nth k l x) (nth k l' y).
Proof.
  revert l' k; induction l as [|a l IH]; intros [|b l'] [|k] H H'; cbn [length] in *; try lia; [reflexivity|]. cbn [zip_with nth]. apply IH; lia.
Qed.
Lemma zip_len {A B C} (f : A -> B -> C) l l' n : length l = n -> length l' = n -> length (zip_with f l l') = n.
Proof. intros H H'. rewrite zip_with_length, H, H'. apply Nat.min_id. Qed.
Lemma nth_upd {A} k j (t : A) x z : (k < length x)%nat -> nth j (upd k t x) z = if (k =? j)%nat then t else nth j x z.
Proof.
  intro H. destruct (Nat.lt_ge_cases j (length x)) as [Hj|Hj].
  - pose proof (nth_error_upd k j t x H) as E. rewrite (nth_error_nth_lt (upd k t x) j z) in E by now rewrite upd_length. rewrite (nth_error_nth_lt x j z Hj) in E. destruct (k =? j)%nat; congruence.
  - rewrite !nth_overflow by (try rewrite upd_length; exact Hj). destruct (Nat.eqb_spec k j); [lia|reflexivity].
Qed.

Section Alike.
Variables (n : nat) (pairs : nat -> nat -> Prop).
Hypothesis inside : forall j k, pairs j k -> (j < n)%nat /\ (k < n)%nat.

Lemma gradient_alike F g x : gradient n F g -> exchangeable n pairs F -> length x = n -> alike pairs x -> alike pairs (g x).
Proof.
  intros HG HX HL HA j k HP. destruct (inside j k HP) as [Hj Hk]. destruct (HG x HL) as [_ D]. pose proof (D j Hj) as Dj. pose proof (D k Hk) as Dk. rewrite <- (HA j k HP) in Dk.
  apply (uniqueness_limite (fun t => F (upd j t x)) (nth j x 0)); [exact Dj|]. apply (derivable_pt_lim_ext (fun t => F (upd k t x))); [|exact Dk]. intro t. symmetry. now apply HX.
Qed.
Definition good (s : adam) : Prop :=
  (length (ad_x s) = n /\ length (ad_avg s) = n /\ length (ad_sq s) = n /\ length (ad_max s) = n) /\ alike pairs (ad_x s) /\ alike pairs (ad_avg s) /\ alike pairs (ad_sq s) /\ alike pairs (ad_max s).
Lemma alike_zip f l l' : length l = n -> length l' = n -> alike pairs l -> alike pairs l' -> alike pairs (zip_with f l l').
Proof. intros H H' A A' j k HP. destruct (inside j k HP). rewrite !(nth_zip_with f l l' _ 0 0) by lia. now rewrite (A j k HP), (A' j k HP). Qed.
Lemma alike_map (f : R -> R) l : length l = n -> alike pairs l -> alike pairs (map f l).
Proof. intros H A j k HP. destruct (inside j k HP). rewrite !(nth_indep (map f l) 0 (f 0)) by (rewrite map_length; lia). now rewrite !map_nth, (A j k HP). Qed.
Lemma good_new x : length x = n -> alike pairs x -> good (adam_new x).
Proof.
  intros H A. unfold good, adam_new. cbn [ad_x ad_avg ad_sq ad_max]. rewrite !repeat_length. repeat split; try assumption; intros j k HP; now rewrite !nth_repeat.
Qed.
Lemma good_step lr g s : length g = n -> alike pairs g -> good s -> good (adam_step lr g s).
Proof.
  intros HL HA ((L1 & L2 & L3 & L4) & A1 & A2 & A3 & A4). unfold good, adam_step. cbn [ad_x ad_avg ad_sq ad_max].
  set (avg := zip_with _ (ad_avg s) g). set (sq := zip_with _ (ad_sq s) g). set (mx := zip_with Rmax (ad_max s) sq).
  assert (La : length avg = n) by (now apply zip_len). assert (Ls : length sq = n) by (now apply zip_len). assert (Lm : length mx = n) by (now apply zip_len).
  assert (Aa : alike pairs avg) by (now apply alike_zip). assert (As : alike pairs sq) by (now apply alike_zip). assert (Am : alike pairs mx) by (now apply alike_zip).
  set (denom := map _ mx). assert (Ld : length denom = n) by (unfold denom; now rewrite map_length). assert (Ad : alike pairs denom) by (now apply alike_map).
  assert (Lq : length (zip_with Rdiv avg denom) = n) by (now apply zip_len). assert (Aq : alike pairs (zip_with Rdiv avg denom)) by (now apply alike_zip).
  repeat split; try assumption; [now apply zip_len|now apply alike_zip].
Qed.
Lemma good_update F g lr s : gradient n F g -> exchangeable n pairs F -> good s -> good (adam_step lr (g (ad_x s)) s).
Proof.
  intros HG HX HS. pose proof HS as ((L1 & _) & A1 & _). apply good_step; [exact (proj1 (HG (ad_x s) L1))|now apply (gradient_alike F g)|exact HS].
Qed.
End Alike.

(** ** Invariants of the training loops *)
Lemma for_loop_inv {X St} (P : St -> Prop) (body : X -> St -> St * bool) l st : P st -> (forall x st, In x l -> P st -> P (fst (body x st))) -> P (for_loop body l st).
Proof.
  revert st; induction l as [|x l IH]; intros st H HB; [exact H|]. cbn [for_loop]. pose proof (HB x st (or_introl eq_refl) H) as Q. destruct (body x st) as [st' []]; [exact Q|]. apply IH; [exact Q|]. intros y s' Hy. apply HB. now right.
Qed.
Lemma for_loop_r_inv {X St} (P : St -> Prop) (body : X -> St -> result (St * bool)) l st st' : P st -> (forall x st st' b, In x l -> P st -> body x st = Ok (st', b) -> P st') -> for_loop_r body l st = Ok st' -> P st'.
Proof.
  revert st; induction l as [|x l IH]; intros st H HB E; [cbn in E; congruence|]. cbn [for_loop_r] in E. destruct (body x st) as [[s b]|] eqn:EB; [|discriminate]. cbn [bind] in E. pose proof (HB x st s b (or_introl eq_refl) H EB) as Q. destruct b; [congruence|]. apply (IH s); [exact Q| |exact E]. intros y s1 s2 b Hy. apply HB. now right.
Qed.
Section Loops.
Context {W B : Type}.
Variables (loss : B -> W -> fl) (update : B -> R -> W -> W) (P : W -> Prop).
Definition kept (t : tstate (W := W)) : Prop := P (t_w t) /\ forall w lr, t_saved t = Some (w, lr) -> P w.
Lemma kept_result t : kept t -> P (tr_w (t_result t)).
Proof. intros [H1 H2]. unfold t_result. destruct (t_saved t) as [[w lr]|] eqn:E; cbn [tr_w]; [now apply (H2 w lr)|exact H1]. Qed.
Lemma mml_kept lr patience limit epochs data w : (forall lr w, P w -> P (update data lr w)) -> P w -> P (tr_w (mml_train loss update lr patience limit epochs data w)).
Proof.
  intros HU HW. apply kept_result. unfold mml_loop. apply for_loop_inv; [split; [exact HW|discriminate]|]. intros e t _ [H1 H2]. unfold mml_epoch. cbn [fst]. split; cbn [t_w t_saved]; [now apply HU|].
  intros w' lr'. destruct (flt _ _); [|apply H2]. intro E. injection E as <- <-. now apply HU.
Qed.
Lemma jml_kept lr patience limit epochs batches w : (forall b lr w, In b batches -> P w -> P (update b lr w)) -> P w -> P (tr_w (jml_train loss update lr patience limit epochs batches w)).
Proof.
  intros HU HW. apply kept_result. unfold jml_loop. apply for_loop_inv; [split; [exact HW|discriminate]|]. intros e t _ HK. cbn [fst]. apply for_loop_inv; [exact HK|]. intros b t' Hb [H1 H2]. unfold jml_batch. cbn [fst]. split; cbn [t_w t_saved]; [now apply HU|].
  intros w' lr'. destruct (flt _ _); [|apply H2]. intro E. injection E as <- <-. now apply HU.
Qed.
Lemma ae_kept lr limit epochs interval norm small loader w r : (forall e b lr w, In b (loader e) -> P w -> P (update b lr w)) -> P w ->
  ae_train loss update lr limit epochs interval norm small loader w = Ok r -> P (tr_w r).
Proof.
  intros HU HW H. unfold ae_train in H. destruct (ae_loop _ _ _ _ _ _ _ _ _ _) as [a|] eqn:E; [|discriminate]. cbn in H. injection H as <-.
  set (Q := fun a : astate (W := W) => P (a_w a) /\ forall w lr, a_saved a = Some (w, lr) -> P w).
  assert (HQ : Q a).
  { unfold ae_loop in E. revert E. apply for_loop_r_inv; [split; [exact HW|discriminate]|]. intros e a0 a1 b _ Ha. unfold ae_epoch. destruct (for_loop_r _ _ _) as [[[[a2 lr2] acc2] nan2]|] eqn:EB; [|discriminate]. cbn [bind].
    intro E. injection E as <- _. change (Q (fst (fst (fst (a2, lr2, acc2, nan2))))). revert EB. apply (for_loop_r_inv (fun st => Q (fst (fst (fst st))))); [exact Ha|]. intros bt [[[a3 lr3] acc3] nan3] st' br Hb [H1 H2] EB. cbn [fst] in *. unfold ae_batch in EB.
    destruct (small bt && norm)%bool; [injection EB as <- _; split; assumption|]. destruct (is_none _); [injection EB as <- _; split; assumption|]. destruct (interval =? 0)%nat; [discriminate|].
    destruct (due _ _); injection EB as <- _; cbn [fst]; split; cbn [a_w a_saved]; try (now apply (HU e)); try exact H2. intros w' lr'. destruct (flt _ _); [|apply H2]. intro EE. injection EE as <- <-. now apply (HU e). }
  destruct HQ as [H1 H2]. unfold a_result. destruct (a_saved a) as [[w' lr']|] eqn:ES; cbn [tr_w]; [now apply (H2 w' lr')|exact H1].
Qed.
End Loops.
