(** Existence of maxima in the presence of directions along which nothing changes. *)
From Coq Require Import Classical_Prop.
From Verif Require Import Base BaseFacts RBase RFacts P_Opt1 P_Max4 P_Max5 P_Max6 P_Max7 P_Max3 S_Max.
Import List.
Local Open Scope R_scope.

(** Zero put in at place [d]. *)
Definition put (d : nat) (t : list R) : list R := firstn d t ++ 0 :: skipn d t.
Lemma put_length d t : length (put d t) = S (length t).
Proof. unfold put. rewrite app_length. cbn [length]. rewrite firstn_length, skipn_length. lia. Qed.
Lemma put_nth d t e : (d <= length t)%nat -> nth e (put d t) 0 = if (e <? d)%nat then nth e t 0 else if (e =? d)%nat then 0 else nth (e - 1) t 0.
Proof.
  intro Hd. unfold put. assert (L : length (firstn d t) = d) by (rewrite firstn_length; lia). destruct (Nat.ltb_spec e d) as [H|H].
  - rewrite app_nth1 by lia. rewrite <- (firstn_skipn d t) at 2. now rewrite app_nth1 by lia.
  - rewrite app_nth2, L by lia. destruct (Nat.eqb_spec e d) as [->|Hne]; [now rewrite Nat.sub_diag|]. replace (e - d)%nat with (S (e - d - 1)) by lia. cbn [nth]. rewrite <- (firstn_skipn d t) at 2. rewrite app_nth2, L by lia. f_equal. lia.
Qed.
Definition take_out (d : nat) (t : list R) : list R := firstn d t ++ skipn (S d) t.
Lemma take_out_length d t : (d < length t)%nat -> S (length (take_out d t)) = length t.
Proof. intro Hd. unfold take_out. rewrite app_length, firstn_length, skipn_length. lia. Qed.
Lemma list_ext (a b : list R) : length a = length b -> (forall d, (d < length a)%nat -> nth d a 0 = nth d b 0) -> a = b.
Proof. intros L H. apply (nth_ext a b 0 0 L H). Qed.
Lemma put_take d t : (d < length t)%nat -> nth d t 0 = 0 -> put d (take_out d t) = t.
Proof.
  intros Hd H0. assert (L : length (firstn d t) = d) by (rewrite firstn_length; lia). unfold put, take_out. rewrite firstn_app, L, Nat.sub_diag. cbn [firstn]. rewrite app_nil_r, firstn_firstn, Nat.min_id.
  rewrite skipn_app, L, Nat.sub_diag. rewrite (skipn_all2 (firstn d t)) by lia. cbn [app skipn]. rewrite <- (firstn_skipn d t) at 3. f_equal. rewrite <- H0.
  clear - Hd. revert t Hd. induction d as [|d IH]; intros [|x t] Hd; cbn [length] in *; try lia; [reflexivity|]. cbn [nth skipn]. apply IH. lia.
Qed.
Lemma put_line n d t v x : (d <= n)%nat -> length t = n -> length v = n -> put d (line n t v x) = line (S n) (put d t) (put d v) x.
Proof.
  intros Hd Lt Lv. apply list_ext; [now rewrite put_length, !line_length|]. intros e He. rewrite put_length, line_length in He. rewrite line_nth by exact He. rewrite !put_nth by (rewrite ?line_length; lia).
  destruct (Nat.ltb_spec e d); [rewrite line_nth by lia; ring|]. destruct (Nat.eqb_spec e d); [ring|]. rewrite line_nth by lia. ring.
Qed.
Lemma put_scaled d t N : put d (map (fun x => x / N) t) = map (fun x => x / N) (put d t).
Proof. unfold put. rewrite map_app. cbn [map]. rewrite firstn_map, skipn_map. replace (0 / N) with 0 by (unfold Rdiv; ring). reflexivity. Qed.
Lemma ucont_put n d f : (d <= n)%nat -> ucont (S n) f -> ucont n (fun t => f (put d t)).
Proof.
  intros Hd H B e He. destruct (H (Rmax 0 B) e He) as (r & Hr & Hx). exists r. split; [exact Hr|]. pose proof (Rmax_l 0 B) as M0. pose proof (Rmax_r 0 B) as M1.
  assert (G : forall t, inbox n B t -> inbox (S n) (Rmax 0 B) (put d t)).
  { intros t [L Hb]. split; [rewrite put_length; lia|]. intros k Hk. rewrite put_nth by lia. destruct (Nat.ltb_spec k d); [specialize (Hb k ltac:(lia)); lra|]. destruct (Nat.eqb_spec k d); [rewrite Rabs_R0; lra|]. specialize (Hb (k - 1)%nat ltac:(lia)). lra. }
  intros t t' Ht Ht' HN. apply Hx; [now apply G|now apply G|]. intros k Hk. destruct Ht as [Lt _], Ht' as [Lt' _]. rewrite !put_nth by lia. destruct (Nat.ltb_spec k d); [apply HN; lia|]. destruct (Nat.eqb_spec k d); [rewrite Rminus_diag_eq, Rabs_R0 by reflexivity; exact Hr|]. apply HN. lia.
Qed.
(** [f] rises with [F]; [F] falls at least as fast as [P] grows; where [P] is zero nothing changes. *)
Lemma attained : forall n (f F P : list R -> R) r C,
  ucont n f -> ucont n P -> (forall t, length t = n -> 0 <= P t) -> (forall t N, length t = n -> 0 < N -> P (map (fun x => x / N) t) = P t / N) ->
  (forall t t', length t = n -> length t' = n -> F t <= F t' -> f t <= f t') -> 0 < r -> (forall t, length t = n -> F t <= C - r * P t) ->
  (forall v t x, length v = n -> length t = n -> P v = 0 -> f (line n t v x) = f t) ->
  exists t, length t = n /\ forall t', length t' = n -> f t' <= f t.
Proof.
  induction n as [|n IH]; intros f F P r C Uf UP P0 PH Mono Hr HB HN.
  { exists []. split; [reflexivity|]. intros [|] L; [lra|discriminate]. }
  destruct (classic (exists v, length v = S n /\ (exists d, (d < S n)%nat /\ nth d v 0 <> 0) /\ P v = 0)) as [(v & Lv & (d & Hd & Hv) & Pv)|HX].
  - destruct (IH (fun t => f (put d t)) (fun t => F (put d t)) (fun t => P (put d t)) r C) as (t0 & L0 & H0).
    + apply ucont_put; [lia|exact Uf].
    + apply ucont_put; [lia|exact UP].
    + intros t Lt. apply P0. rewrite put_length. lia.
    + intros t N Lt HN'. rewrite put_scaled. apply PH; [rewrite put_length; lia|exact HN'].
    + intros t t' Lt Lt'. apply Mono; rewrite put_length; lia.
    + exact Hr.
    + intros t Lt. apply HB. rewrite put_length. lia.
    + intros w t x Lw Lt Pw. rewrite put_line by (auto; lia). apply HN; [rewrite put_length; lia|rewrite put_length; lia|exact Pw].
    + exists (put d t0). split; [rewrite put_length; lia|]. intros t' Lt'. set (x := - (nth d t' 0 / nth d v 0)). rewrite <- (HN v t' x Lv Lt' Pv).
      assert (E : put d (take_out d (line (S n) t' v x)) = line (S n) t' v x) by (apply put_take; rewrite ?line_length; [exact Hd|]; rewrite line_nth by exact Hd; unfold x; field; exact Hv).
      rewrite <- E. apply H0. pose proof (take_out_length d (line (S n) t' v x) ltac:(rewrite line_length; exact Hd)) as L. rewrite line_length in L. lia.
  - destruct (scaled_min (S n) P UP) as (lam & Hlam & Hsc).
    { intros t L Hx. destruct (P0 t L) as [|E]; [assumption|]. exfalso. apply HX. exists t. split; [exact L|]. split; [exact Hx|now symmetry]. }
    assert (LB : forall t d, length t = S n -> (d < S n)%nat -> F t <= C - r * lam * Rabs (nth d t 0)).
    { intros t d L Hd. specialize (HB t L). assert (lam * Rabs (nth d t 0) <= P t).
      { destruct (Req_dec (nth d t 0) 0) as [E|E]; [rewrite E, Rabs_R0, Rmult_0_r; now apply P0|]. destruct (Hsc t d L Hd E) as (N & HN' & HdN & Hq). rewrite (PH t N L HN') in Hq.
        apply Rle_trans with (lam * N); [apply Rmult_le_compat_l; lra|]. apply (Rmult_le_reg_r (/ N)); [now apply Rinv_0_lt_compat|]. rewrite Rmult_assoc, Rinv_r by lra. lra. }
      assert (r * (lam * Rabs (nth d t 0)) <= r * P t) by (apply Rmult_le_compat_l; lra). lra. }
    set (l0 := F (repeat 0 (S n))). pose proof (Rmult_lt_0_compat _ _ Hr Hlam) as Hrl. set (B := Rmax 0 ((C - l0) / (r * lam))). pose proof (Rmax_l 0 ((C - l0) / (r * lam))) as B0. pose proof (Rmax_r 0 ((C - l0) / (r * lam))) as B1. fold B in B0, B1.
    apply (far_maximum (S n) f B B0 Uf). intros t d L Hd HF. specialize (LB t d L Hd). assert (E : (C - l0) / (r * lam) * (r * lam) = C - l0) by (field; lra).
    assert (X : (C - l0) / (r * lam) * (r * lam) <= Rabs (nth d t 0) * (r * lam)) by (apply Rmult_le_compat_r; lra). apply Mono; [exact L|apply repeat_length|]. fold l0. lra.
Qed.
