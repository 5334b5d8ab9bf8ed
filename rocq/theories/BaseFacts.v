(** Lemmas about [Base.v]. *)
From Verif Require Import Base.

Lemma nth_error_mapi_from {A B} (f : nat -> A -> B) l i j :
  nth_error (mapi_from i f l) j = option_map (f (i + j)) (nth_error l j).
Proof.
  revert i j; induction l as [|a l IH]; intros i [|j]; cbn; try reflexivity.
  - now rewrite Nat.add_0_r.
  - rewrite IH. now replace (S i + j) with (i + S j) by lia.
Qed.

Lemma nth_error_mapi {A B} (f : nat -> A -> B) l j :
  nth_error (mapi f l) j = option_map (f j) (nth_error l j).
Proof. apply (nth_error_mapi_from f l 0 j). Qed.

Lemma mapi_from_length {A B} (f : nat -> A -> B) l i : length (mapi_from i f l) = length l.
Proof. revert i; induction l; intro i; cbn; auto. Qed.
Lemma mapi_length {A B} (f : nat -> A -> B) l : length (mapi f l) = length l.
Proof. apply mapi_from_length. Qed.

Lemma nth_error_ext {A} (l l' : list A) :
  (forall i, nth_error l i = nth_error l' i) -> l = l'.
Proof.
  revert l'; induction l as [|a l IH]; intros [|b l'] H; auto.
  - specialize (H 0); discriminate.
  - specialize (H 0); discriminate.
  - f_equal.
    + specialize (H 0); cbn in H; congruence.
    + apply IH; intro i; exact (H (S i)).
Qed.

Lemma mapM_Ok {A B} (f : A -> result B) l bs :
  mapM f l = Ok bs <-> Forall2 (fun a b => f a = Ok b) l bs.
Proof.
  revert bs; induction l as [|a l IH]; intro bs; cbn.
  - split; intro H.
    + injection H as <-; constructor.
    + inversion H; reflexivity.
  - split; intro H.
    + destruct (f a) as [b|e] eqn:E; cbn in H; [|discriminate].
      destruct (mapM f l) as [bs'|e] eqn:E2; cbn in H; [|discriminate].
      injection H as <-; constructor; auto. now apply IH.
    + inversion H as [|x b l0 bs' Hb Hbs]; subst. rewrite Hb; cbn.
      apply IH in Hbs. now rewrite Hbs.
Qed.

Lemma mapM_total {A B} (f : A -> result B) (g : A -> B) l :
  (forall a, In a l -> f a = Ok (g a)) -> mapM f l = Ok (map g l).
Proof.
  induction l as [|a l IH]; intro H; cbn; auto.
  rewrite (H a (or_introl eq_refl)); cbn.
  rewrite IH; cbn; auto. intros; apply H; now right.
Qed.

Lemma mapM_Err {A B} (f : A -> result B) l e :
  (forall a, In a l -> (exists b, f a = Ok b) \/ f a = Err e) ->
  (exists a, In a l /\ f a = Err e) -> mapM f l = Err e.
Proof.
  induction l as [|a l IH]; intros H [x [Hx Hf]]; cbn; [destruct Hx|].
  destruct (H a (or_introl eq_refl)) as [[b Hb]|Hb]; rewrite Hb; cbn; auto.
  destruct Hx as [->|Hx]; [congruence|].
  rewrite IH; auto; [|eauto]. intros y Hy; apply H; now right.
Qed.

Lemma mapM_dichotomy {A B} (f : A -> result B) l e :
  (forall a, In a l -> (exists b, f a = Ok b) \/ f a = Err e) ->
  (exists bs, mapM f l = Ok bs) \/ mapM f l = Err e.
Proof.
  induction l as [|a l IH]; intro H; cbn; eauto.
  destruct (H a (or_introl eq_refl)) as [[b Hb]|Hb]; rewrite Hb; cbn; auto.
  destruct IH as [[bs Hbs]|Hbs]; [|rewrite Hbs; cbn; eauto|rewrite Hbs; auto].
  intros x Hx; apply H; now right.
Qed.

Lemma mapiM_from_total {A B} (f : nat -> A -> result B) (g : nat -> A -> B) l i :
  (forall j a, nth_error l j = Some a -> f (i + j) a = Ok (g (i + j) a)) ->
  mapiM_from i f l = Ok (mapi_from i g l).
Proof.
  revert i; induction l as [|a l IH]; intros i H; cbn; auto.
  pose proof (H 0 a eq_refl) as H0; rewrite Nat.add_0_r in H0; rewrite H0; cbn.
  rewrite IH; [reflexivity|].
  intros j b Hj. replace (S i + j) with (i + S j) by lia. now apply H.
Qed.
Lemma mapiM_total {A B} (f : nat -> A -> result B) (g : nat -> A -> B) l :
  (forall j a, nth_error l j = Some a -> f j a = Ok (g j a)) -> mapiM f l = Ok (mapi g l).
Proof. intro H; apply mapiM_from_total; intros; cbn; auto. Qed.

Lemma mapiM_from_Ok {A B} (f : nat -> A -> result B) l bs i :
  mapiM_from i f l = Ok bs ->
  length bs = length l /\
  (forall j a, nth_error l j = Some a -> exists b, nth_error bs j = Some b /\ f (i + j) a = Ok b).
Proof.
  revert i bs; induction l as [|a l IH]; intros i bs H; cbn in H.
  - injection H as <-; split; auto. intros [|j] a Ha; discriminate.
  - destruct (f i a) as [b|e] eqn:E; cbn in H; [|discriminate].
    destruct (mapiM_from (S i) f l) as [bs'|e] eqn:E2; cbn in H; [|discriminate].
    injection H as <-. destruct (IH _ _ E2) as [Hl Hn].
    split; [cbn; lia|]. intros [|j] x Hx; cbn in Hx.
    + injection Hx as ->. exists b; rewrite Nat.add_0_r; auto.
    + destruct (Hn j x Hx) as [y [Hy Hf]]. exists y; split; auto.
      now replace (i + S j) with (S i + j) by lia.
Qed.
Lemma mapiM_Ok {A B} (f : nat -> A -> result B) l bs :
  mapiM f l = Ok bs ->
  length bs = length l /\
  (forall j a, nth_error l j = Some a -> exists b, nth_error bs j = Some b /\ f j a = Ok b).
Proof. intro H; apply (mapiM_from_Ok f l bs 0 H). Qed.

Lemma mapiM_from_Err {A B} (f : nat -> A -> result B) l e i :
  (forall j a, nth_error l j = Some a -> (exists b, f (i + j) a = Ok b) \/ f (i + j) a = Err e) ->
  (exists j a, nth_error l j = Some a /\ f (i + j) a = Err e) -> mapiM_from i f l = Err e.
Proof.
  revert i; induction l as [|a l IH]; intros i H [j [x [Hx Hf]]]; [destruct j; discriminate|].
  cbn. pose proof (H 0 a eq_refl) as H0; rewrite Nat.add_0_r in H0.
  destruct H0 as [[b Hb]|Hb]; rewrite Hb; cbn; auto.
  destruct j as [|j]; cbn in Hx.
  - injection Hx as ->. rewrite Nat.add_0_r in Hf. congruence.
  - rewrite IH; auto.
    + intros k y Hy. replace (S i + k) with (i + S k) by lia. now apply H.
    + exists j, x; split; auto. now replace (S i + j) with (i + S j) by lia.
Qed.
Lemma mapiM_Err {A B} (f : nat -> A -> result B) l e :
  (forall j a, nth_error l j = Some a -> (exists b, f j a = Ok b) \/ f j a = Err e) ->
  (exists j a, nth_error l j = Some a /\ f j a = Err e) -> mapiM f l = Err e.
Proof. intros; now apply mapiM_from_Err. Qed.

Lemma upd_length {A} n (x : A) l : length (upd n x l) = length l.
Proof. revert n; induction l; intros [|n]; cbn; auto. Qed.
Lemma nth_error_upd_eq {A} n (x : A) l : n < length l -> nth_error (upd n x l) n = Some x.
Proof. revert n; induction l; intros [|n] H; cbn in *; try lia; auto. apply IHl; lia. Qed.
Lemma nth_error_upd_neq {A} n m (x : A) l : n <> m -> nth_error (upd n x l) m = nth_error l m.
Proof. revert n m; induction l; intros [|n] [|m] H; cbn; auto; try congruence. Qed.
Lemma nth_error_upd {A} n m (x : A) l : n < length l ->
  nth_error (upd n x l) m = if n =? m then Some x else nth_error l m.
Proof.
  intro H; destruct (Nat.eqb_spec n m) as [<-|Hne].
  - now apply nth_error_upd_eq.
  - now apply nth_error_upd_neq.
Qed.

Lemma nth_error_repeat_lt {A} (x : A) n i : i < n -> nth_error (repeat x n) i = Some x.
Proof. revert i; induction n; intros [|i] H; cbn; try lia; auto. apply IHn; lia. Qed.

Lemma nth_error_seq n s i : i < n -> nth_error (seq s n) i = Some (s + i).
Proof.
  revert s i; induction n; intros s [|i] H; cbn; try lia; auto.
  rewrite IHn by lia. f_equal; lia.
Qed.
Lemma nth_error_map_seq {A} (f : nat -> A) n s i :
  i < n -> nth_error (map f (seq s n)) i = Some (f (s + i)).
Proof. intro H. now rewrite nth_error_map, nth_error_seq. Qed.

Lemma nth_error_nth_lt {A} (l : list A) i d : i < length l -> nth_error l i = Some (nth i l d).
Proof. revert i; induction l; intros [|i] H; cbn in *; try lia; auto. apply IHl; lia. Qed.

Lemma nth_error_zip_with {A B C} (f : A -> B -> C) la lb i :
  nth_error (zip_with f la lb) i =
  match nth_error la i, nth_error lb i with Some a, Some b => Some (f a b) | _, _ => None end.
Proof.
  revert lb i; induction la as [|a la IH]; intros [|b lb] [|i]; cbn; auto.
  destruct (nth_error la i); auto.
Qed.
Lemma zip_with_length {A B C} (f : A -> B -> C) la lb :
  length (zip_with f la lb) = Nat.min (length la) (length lb).
Proof. revert lb; induction la; intros [|b lb]; cbn; auto. Qed.

(** Position of element [j] of piece [i] inside a concatenation. *)
Definition offset (ns : list nat) (i : nat) : nat := list_sum (firstn i ns).

Lemma offset_S a ns i : offset (a :: ns) (S i) = a + offset ns i.
Proof. reflexivity. Qed.

Lemma nth_error_concat {A} (ls : list (list A)) i j l :
  nth_error ls i = Some l -> j < length l ->
  nth_error (concat ls) (offset (map (@length A) ls) i + j) = nth_error l j.
Proof.
  revert i; induction ls as [|l0 ls IH]; intros [|i] Hi Hj; cbn in Hi; try discriminate.
  - injection Hi as ->. cbn. rewrite nth_error_app1; auto.
  - cbn [map concat]. rewrite offset_S.
    rewrite nth_error_app2 by lia.
    replace (length l0 + offset (map (@length A) ls) i + j - length l0)
      with (offset (map (@length A) ls) i + j) by lia.
    now apply IH.
Qed.

Lemma length_concat_sum {A} (ls : list (list A)) : length (concat ls) = list_sum (map (@length A) ls).
Proof. induction ls; cbn; auto. rewrite app_length; now rewrite IHls. Qed.

(** Blocks. *)
Lemma blocks_fuel_concat {A} fuel n (l : list A) :
  0 < n -> length l <= fuel -> concat (blocks_fuel fuel n l) = l.
Proof.
  intro Hn; revert l; induction fuel as [|f IH]; intros l H.
  - destruct l; auto; cbn in H; lia.
  - destruct l as [|a l]; auto. cbn [blocks_fuel concat].
    rewrite IH; [apply firstn_skipn|].
    rewrite skipn_length; cbn [length] in *; lia.
Qed.
Lemma blocks_concat {A} n (l : list A) : 0 < n -> concat (blocks n l) = l.
Proof. intro; apply blocks_fuel_concat; auto. Qed.

Lemma blocks_fuel_length {A} fuel n (l : list A) :
  0 < n -> length l <= fuel -> length (blocks_fuel fuel n l) = ceil_div (length l) n.
Proof.
  intro Hn; revert l; induction fuel as [|f IH]; intros l H.
  - destruct l; cbn in *; [|lia]. unfold ceil_div. now rewrite Nat.div_small by lia.
  - destruct l as [|a l].
    + cbn. unfold ceil_div. now rewrite Nat.div_small by lia.
    + cbn [blocks_fuel length]. rewrite IH by (rewrite skipn_length; cbn [length] in *; lia).
      rewrite skipn_length. unfold ceil_div. cbn [length].
      destruct (Nat.le_gt_cases n (S (length l))) as [Hle|Hgt].
      * replace (S (length l) + n - 1) with ((S (length l) - n + n - 1) + 1 * n) by lia.
        rewrite Nat.div_add by lia. lia.
      * replace (S (length l) - n) with 0 by lia.
        rewrite (Nat.div_small (0 + n - 1)) by lia.
        replace (S (length l) + n - 1) with (length l + 1 * n) by lia.
        rewrite Nat.div_add by lia. rewrite Nat.div_small; lia.
Qed.
Lemma blocks_length {A} n (l : list A) : 0 < n -> length (blocks n l) = ceil_div (length l) n.
Proof. intro; apply blocks_fuel_length; auto. Qed.

Lemma nth_error_blocks_fuel {A} fuel n (l : list A) i :
  0 < n -> length l <= fuel ->
  nth_error (blocks_fuel fuel n l) i =
  if i * n <? length l then Some (firstn n (skipn (i * n) l)) else None.
Proof.
  intro Hn; revert l i; induction fuel as [|f IH]; intros l i H.
  - destruct l; cbn in *; [|lia]. destruct i; reflexivity.
  - destruct l as [|a l].
    + cbn. destruct i; reflexivity.
    + destruct i as [|i].
      * reflexivity.
      * cbn [blocks_fuel nth_error]. rewrite IH by (rewrite skipn_length; cbn [length] in *; lia).
        rewrite skipn_length.
        replace (S i * n) with (n + i * n) by lia.
        assert (Hsk : forall p q (m : list A), skipn p (skipn q m) = skipn (q + p) m).
        { clear. intros p q; revert p; induction q; intros p m; cbn; auto.
          destruct m; [destruct p; reflexivity|]. apply IHq. }
        rewrite Hsk.
        destruct (Nat.ltb_spec (i * n) (length (a :: l) - n));
          destruct (Nat.ltb_spec (n + i * n) (length (a :: l))); auto; lia.
Qed.
Lemma nth_error_blocks {A} n (l : list A) i :
  0 < n ->
  nth_error (blocks n l) i =
  if i * n <? length l then Some (firstn n (skipn (i * n) l)) else None.
Proof. intros; now apply nth_error_blocks_fuel. Qed.

Lemma skipn_skipn_add {A} p q (m : list A) : skipn p (skipn q m) = skipn (q + p) m.
Proof.
  revert p; revert m; induction q; intros m p; cbn; auto.
  destruct m; [destruct p; reflexivity|]. apply IHq.
Qed.

Lemma nth_error_skipn_add {A} n (l : list A) i : nth_error (skipn n l) i = nth_error l (n + i).
Proof.
  revert l; induction n; intros l; cbn; auto. destruct l; [destruct i; reflexivity|]. apply IHn.
Qed.
Lemma nth_error_firstn_lt {A} n (l : list A) i : i < n -> nth_error (firstn n l) i = nth_error l i.
Proof.
  revert l i; induction n; intros l i H; [lia|]. destruct l; destruct i; cbn; auto.
  apply IHn; lia.
Qed.
Lemma nth_error_firstn_ge {A} n (l : list A) i : n <= i -> nth_error (firstn n l) i = None.
Proof. intro H; apply nth_error_None; rewrite firstn_length; lia. Qed.

(** Blocks of a list that was built as a concatenation of equally long pieces. *)
Lemma blocks_fuel_flat {A} fuel n (ls : list (list A)) :
  0 < n -> Forall (fun l => length l = n) ls -> length (concat ls) <= fuel ->
  blocks_fuel fuel n (concat ls) = ls.
Proof.
  intro Hn; revert ls; induction fuel as [|f IH]; intros ls HF Hl.
  - destruct ls as [|l ls]; auto. inversion HF; subst. cbn in Hl.
    rewrite app_length in Hl. lia.
  - destruct ls as [|l ls]; auto. inversion HF as [|? ? Hlen HF']; subst.
    cbn [concat]. destruct l as [|a l]; [cbn in Hn; lia|].
    cbn [app blocks_fuel].
    change (a :: l ++ concat ls) with ((a :: l) ++ concat ls).
    rewrite firstn_app, firstn_all, Nat.sub_diag, firstn_O, app_nil_r.
    rewrite skipn_app, skipn_all, Nat.sub_diag, skipn_O, app_nil_l.
    f_equal. apply IH; auto. cbn in Hl. rewrite app_length in Hl. lia.
Qed.
Lemma blocks_flat {A} n (ls : list (list A)) :
  0 < n -> Forall (fun l => length l = n) ls -> blocks n (concat ls) = ls.
Proof. intros; now apply blocks_fuel_flat. Qed.

Lemma split_sizes_flat {A} (ls : list (list A)) :
  split_sizes (map (@length A) ls) (concat ls) = ls.
Proof.
  induction ls as [|l ls IH]; auto. cbn [map concat split_sizes].
  rewrite firstn_app, firstn_all, Nat.sub_diag, firstn_O, app_nil_r.
  rewrite skipn_app, skipn_all, Nat.sub_diag, skipn_O, app_nil_l.
  now rewrite IH.
Qed.

Lemma repeat_interleave_length {A} k (l : list A) : length (repeat_interleave k l) = length l * k.
Proof. induction l; cbn; auto. rewrite app_length, repeat_length. unfold repeat_interleave in IHl. lia. Qed.

Lemma nth_error_repeat_interleave {A} k (l : list A) i j :
  j < k -> nth_error (repeat_interleave k l) (i * k + j) = nth_error l i.
Proof.
  intro Hj; revert i; induction l as [|a l IH]; intros i.
  - cbn. destruct (i * k + j); destruct i; reflexivity.
  - unfold repeat_interleave; cbn [flat_map]. destruct i as [|i].
    + cbn [Nat.mul Nat.add]. rewrite nth_error_app1 by (rewrite repeat_length; lia).
      now apply nth_error_repeat_lt.
    + rewrite nth_error_app2 by (rewrite repeat_length; lia).
      rewrite repeat_length. replace (S i * k + j - k) with (i * k + j) by lia.
      apply IH.
Qed.

Lemma tile_length {A} k (l : list A) : length (tile k l) = k * length l.
Proof. unfold tile; induction k; cbn; auto. rewrite app_length; lia. Qed.

Lemma nth_error_tile {A} k (l : list A) i j :
  i < k -> j < length l -> nth_error (tile k l) (i * length l + j) = nth_error l j.
Proof.
  unfold tile; revert i; induction k as [|k IH]; intros i Hi Hj; [lia|].
  cbn [repeat concat]. destruct i as [|i].
  - cbn. now rewrite nth_error_app1.
  - rewrite nth_error_app2 by lia.
    replace (S i * length l + j - length l) with (i * length l + j) by lia.
    apply IH; lia.
Qed.

Lemma Forall_concat_blocks {A} n (l : list A) :
  0 < n -> (exists q, length l = q * n) -> Forall (fun b => length b = n) (blocks n l).
Proof.
  intros Hn [q Hq]. apply Forall_forall; intros b Hb.
  apply In_nth_error in Hb as [i Hi]. rewrite nth_error_blocks in Hi by auto.
  destruct (Nat.ltb_spec (i * n) (length l)); [|discriminate].
  injection Hi as <-. rewrite firstn_length, skipn_length.
  assert (S i <= q). { destruct (Nat.le_gt_cases q i); [|lia]. nia. }
  assert (n <= length l - i * n) by nia. lia.
Qed.

Lemma map_repeat {A B} (f : A -> B) x n : map f (repeat x n) = repeat (f x) n.
Proof. induction n; cbn; congruence. Qed.
