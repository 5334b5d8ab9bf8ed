(** Colours of categories: repeated lists and levels of gray. *)
From Coq Require Import String Ascii.
From Verif Require Import Base BaseFacts RBase M_Data M_Enc M_Colour S_Colour.
Import List.
Local Open Scope nat_scope.

Lemma repeated_length l n : length (repeated l n) = n * length l.
Proof. unfold repeated. induction n as [|n IH]; [reflexivity|]. cbn [repeat concat]. rewrite app_length, IH. lia. Qed.
Lemma repeated_nth l n k d : k < n * length l -> nth k (repeated l n) d = nth (k mod length l) l d.
Proof.
  revert k. induction n as [|n IH]; intros k Hk; [lia|]. unfold repeated. cbn [repeat concat]. fold (repeated l n).
  assert (L : length l <> 0) by (destruct (length l); lia). destruct (Nat.lt_ge_cases k (length l)) as [H|H].
  - rewrite app_nth1 by exact H. now rewrite Nat.mod_small.
  - rewrite app_nth2 by exact H. rewrite IH by (cbn in Hk; lia). replace k with ((k - length l) + 1 * length l) at 2 by lia. now rewrite Nat.mod_add.
Qed.
Lemma repeated_app l a b : repeated l a ++ repeated l b = repeated l (a + b).
Proof. unfold repeated. now rewrite repeat_app, concat_app. Qed.
Lemma repeated_twice l a b : repeated (repeated l a) b = repeated l (b * a).
Proof. induction b as [|b IH]; [reflexivity|]. unfold repeated at 1. cbn [repeat concat]. fold (repeated (repeated l a) b). now rewrite IH, repeated_app. Qed.
Lemma repeated_one l : repeated l 1 = l.
Proof. unfold repeated. cbn. now rewrite app_nil_r. Qed.
(** Colour [k] of a palette made of copies. *)
Lemma copies_nth l n k d : l <> [] -> 1 <= n -> nth (k mod length (repeated l n)) (repeated l n) d = nth (k mod length l) l d.
Proof.
  intros Hl Hn. assert (L : length l <> 0) by (destruct l; [contradiction|cbn; lia]). rewrite repeated_length, repeated_nth by (apply Nat.mod_upper_bound; nia). f_equal.
  replace (n * length l) with (length l * n) by lia. rewrite Nat.mod_mul_r by lia. rewrite (Nat.mul_comm (length l) ((k / length l) mod n)), Nat.mod_add by exact L. now apply Nat.mod_mod.
Qed.
Lemma longer_copies l n K : l <> [] -> 1 <= n -> exists n', 1 <= n' /\ (if length (repeated l n) <? K then repeated (repeated l n) (K / length (repeated l n) + 1) else repeated l n) = repeated l n'.
Proof. intros Hl Hn. destruct (Nat.ltb_spec (length (repeated l n)) K); [|now exists n]. rewrite repeated_twice. exists ((K / length (repeated l n) + 1) * n). split; [nia|reflexivity]. Qed.
Lemma longer_copies_in_place l n K : l <> [] -> 1 <= n -> exists n', 1 <= n' /\ (if length (repeated l n) <? K then repeated l n ++ repeated (repeated l n) (K / length (repeated l n) + 1) else repeated l n) = repeated l n'.
Proof. intros Hl Hn. destruct (Nat.ltb_spec (length (repeated l n)) K); [|now exists n]. rewrite repeated_twice, repeated_app. eexists. split; [|reflexivity]. lia. Qed.
Lemma session_copies {V} (nan : V) l rs : l <> [] -> forall n, 1 <= n -> exists n', 1 <= n' /\ session nan (repeated l n) rs = repeated l n'.
Proof.
  intro Hl. induction rs as [|r rs IH]; intros n Hn; [now exists n|]. unfold session. cbn [fold_left]. fold (session nan (palette_after nan (repeated l n) r) rs).
  assert (G : exists n', 1 <= n' /\ palette_after nan (repeated l n) r = repeated l n').
  { destruct r as [mc gray K pts groups|gray K pts]; [now exists n|]. cbn [palette_after]. unfold item_surfaces. destruct (negb _); [now exists n|]. destruct (gray && (K =? 1))%bool; [now exists n|]. cbn [snd]. destruct gray; [now exists n|]. now apply longer_copies_in_place. }
  destruct G as (n' & Hn' & ->). now apply IH.
Qed.

(** Gray levels *)
Definition level (n i : nat) : nat := 176 * (n - 1 - i) / (n - 1).
Definition gray (l : nat) : string := String "#" (append (hex l) (append (hex l) (hex l))).
Lemma gray_colours_is n : gray_colours n = map (fun i => gray (level n i)) (seq 0 n).
Proof. reflexivity. Qed.
Lemma gray_colours_length n : length (gray_colours n) = n.
Proof. unfold gray_colours. now rewrite map_length, seq_length. Qed.
Lemma level_bound n i : 2 <= n -> level n i <= 176.
Proof. intro Hn. unfold level. apply Nat.div_le_upper_bound; [lia|]. nia. Qed.
Lemma level_first n : 2 <= n -> level n 0 = 176.
Proof. intro Hn. unfold level. rewrite Nat.sub_0_r. apply Nat.div_mul. lia. Qed.
Lemma level_last n : 2 <= n -> level n (n - 1) = 0.
Proof. intro Hn. unfold level. rewrite Nat.sub_diag, Nat.mul_0_r. apply Nat.div_0_l. lia. Qed.
Lemma level_decreasing n i j : 2 <= n -> i <= j -> j < n -> level n j <= level n i.
Proof. intros Hn Hij Hj. unfold level. apply Nat.div_le_mono; nia. Qed.
Lemma level_strict n i j : 2 <= n <= 177 -> i < j -> j < n -> level n j < level n i.
Proof.
  intros Hn Hij Hj. unfold level. set (d := n - 1). assert (Hd : 1 <= d <= 176) by lia.
  apply (Nat.lt_le_trans _ (176 * (d - j) / d + 1)); [lia|]. replace (176 * (d - j) / d + 1) with ((176 * (d - j) + 1 * d) / d) by (rewrite Nat.div_add by lia; lia). apply Nat.div_le_mono; nia.
Qed.
Lemma hex_digit_inj a b : a < 16 -> b < 16 -> hex_digit a = hex_digit b -> a = b.
Proof. intros Ha Hb H. do 16 (destruct a as [|a]; [do 16 (destruct b as [|b]; [first [reflexivity|discriminate H]|]); lia|]). lia. Qed.
Lemma gray_inj a b : a < 256 -> b < 256 -> gray a = gray b -> a = b.
Proof.
  intros Ha Hb H. assert (G : forall c d c' d' : ascii, let w := fun c d => String c (String d EmptyString) in String "#" (append (w c d) (append (w c d) (w c d))) = String "#" (append (w c' d') (append (w c' d') (w c' d'))) -> c = c' /\ d = d') by (intros c d c' d' w E; cbn in E; injection E; auto).
  apply G in H as [H1 H2]; clear G.
  apply hex_digit_inj in H1; [|apply Nat.div_lt_upper_bound; lia|apply Nat.div_lt_upper_bound; lia]. apply hex_digit_inj in H2; [|apply Nat.mod_upper_bound; lia|apply Nat.mod_upper_bound; lia].
  rewrite (Nat.div_mod a 16), (Nat.div_mod b 16) by lia. lia.
Qed.
Lemma gray_nth n k : k < n -> nth k (gray_colours n) EmptyString = gray (level n k).
Proof. intro Hk. rewrite gray_colours_is, (nth_indep _ _ (gray (level n 0))) by (rewrite map_length, seq_length; exact Hk). rewrite (map_nth (fun i => gray (level n i))), seq_nth by exact Hk. reflexivity. Qed.
Lemma gray_distinct n : 2 <= n -> (NoDup (gray_colours n) <-> n <= 177).
Proof.
  intro Hn. split.
  - intro HD. rewrite gray_colours_is in HD. assert (L : length (map (fun i => gray (level n i)) (seq 0 n)) <= length (map gray (seq 0 177))).
    { apply NoDup_incl_length; [exact HD|]. intros c Hc. apply in_map_iff in Hc as (i & <- & Hi). apply in_map, in_seq. pose proof (level_bound n i Hn). lia. }
    rewrite !map_length, !seq_length in L. exact L.
  - intro Hm. apply (NoDup_nth _ EmptyString). rewrite gray_colours_length. intros i j Hi Hj E. rewrite !gray_nth in E by assumption.
    pose proof (level_bound n i Hn). pose proof (level_bound n j Hn). apply gray_inj in E; [|lia|lia].
    destruct (Nat.lt_trichotomy i j) as [H1|[H1|H1]]; [|exact H1|]; [pose proof (level_strict n i j ltac:(lia) H1 Hj)|pose proof (level_strict n j i ltac:(lia) H1 Hi)]; lia.
Qed.
Lemma flat_nth {A} (w : nat) (f : nat -> list A) K k q : (forall k, length (f k) = w) -> k < K -> q < w -> nth_error (flat_map f (seq 0 K)) (w * k + q) = nth_error (f k) q.
Proof.
  intros Hf Hk Hq. assert (G : forall K b k, k < K -> nth_error (flat_map f (seq b K)) (w * k + q) = nth_error (f (b + k)) q); [|now rewrite (G K 0 k Hk)].
  clear K k Hk. induction K as [|K IH]; intros b k Hk; [lia|]. cbn [seq flat_map]. destruct k as [|k].
  - rewrite nth_error_app1 by (rewrite Hf; lia). rewrite Nat.mul_0_r, Nat.add_0_r. reflexivity.
  - rewrite nth_error_app2 by (rewrite Hf; nia). rewrite Hf. replace (w * S k + q - w) with (w * k + q) by nia. rewrite IH by lia. f_equal. f_equal. lia.
Qed.
Lemma flat_length {A} (w : nat) (f : nat -> list A) K : (forall k, length (f k) = w) -> length (flat_map f (seq 0 K)) = w * K.
Proof. intro Hf. generalize 0 as b. induction K as [|K IH]; intro b; [cbn; lia|]. cbn [seq flat_map]. rewrite app_length, Hf, IH. lia. Qed.
Lemma level_real n i : 2 <= n -> i < n -> level n i * (n - 1) <= 176 * (n - 1 - i) < (level n i + 1) * (n - 1).
Proof. intros Hn Hi. unfold level. pose proof (Nat.div_mod (176 * (n - 1 - i)) (n - 1) ltac:(lia)) as E. pose proof (Nat.mod_upper_bound (176 * (n - 1 - i)) (n - 1) ltac:(lia)). nia. Qed.
Lemma hex_is l : l < 256 -> hex l = two_digits l.
Proof.
  intro Hl. assert (G : forallb (fun l => String.eqb (hex l) (two_digits l)) (seq 0 256) = true) by (vm_compute; reflexivity).
  rewrite forallb_forall in G. apply String.eqb_eq, G, in_seq. lia.
Qed.
