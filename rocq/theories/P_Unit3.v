(** Lemmas: the places of the parameters of a monotone neural network, and exchanging two of them. *)
From Coq Require Import FunctionalExtensionality.
From Verif Require Import Base BaseFacts RBase RFacts M_Data M_CV M_Logit M_Mono M_Lik M_Est M_Train M_Mix M_Quad M_Adam P_Logit P_Sym1 P_Mono1 P_Mono2 P_Mono3 P_Mono4 P_Mono5 P_Twin1 P_Twin2 P_Unit1 P_Unit2 S_Logit S_Mono S_Twin S_Unit.
Import List.
Local Open Scope R_scope.

Definition no_layer : spl := {| sl_in := 0; sl_out := 0; sl_softplus := true; sl_zero_out := []; sl_free := []; sl_raw := []; sl_bias := [] |}.
Definition in_at (n_in G : nat) (hs : list nat) (k : nat) : nat := match k with O => n_in | S k' => (G * nth k' hs O)%nat end.
Definition hp_at (hp : nat) (hs : list nat) (k : nat) : nat := match k with O => hp | S k' => nth k' hs O end.
Definition first_at (first : bool) (k : nat) : bool := match k with O => first | S _ => false end.
Lemma in_at_cons n_in G h hs k : in_at (G * h) G hs k = in_at n_in G (h :: hs) (S k).
Proof. destruct k; reflexivity. Qed.
Lemma hp_at_cons hp h hs k : hp_at h hs k = hp_at hp (h :: hs) (S k).
Proof. destruct k; reflexivity. Qed.
Lemma wired_length z G first n_in hp ls hs : wired z G first n_in hp ls hs -> length ls = length hs.
Proof. revert first n_in hp hs; induction ls as [|l ls IH]; intros first n_in hp [|h hs] H; cbn [wired] in H; try contradiction; [reflexivity|]. cbn [length]. f_equal. now apply (IH false (G * h)%nat h). Qed.
Lemma wired_at z G first n_in hp ls hs k : wired z G first n_in hp ls hs -> (k < length hs)%nat -> let l := nth k ls no_layer in let h := nth k hs O in
  spl_wf l /\ sl_in l = in_at n_in G hs k /\ sl_out l = (G * h)%nat /\ (0 < h)%nat /\ (forall o, (o < G * h)%nat -> nth o (sl_zero_out l) false = z (o / h)%nat) /\
  (forall o i, (o < G * h)%nat -> (i < in_at n_in G hs k)%nat -> nth i (nth o (sl_free l) []) false = (negb (z (o / h)%nat) && (first_at first k || (o / h =? i / hp_at hp hs k)%nat))%bool).
Proof.
  revert first n_in hp hs k; induction ls as [|l ls IH]; intros first n_in hp [|h hs] k H Hk; cbn [wired] in H; try contradiction; [cbn in Hk; lia|]. destruct H as (W & W1 & W2 & W3 & W4 & W5 & W6). destruct k as [|k]; [cbn; auto 8|].
  cbn [nth]. pose proof (IH false (G * h)%nat h hs k W6 ltac:(cbn in Hk; lia)) as Q. cbn zeta in Q. rewrite (in_at_cons n_in), (hp_at_cons hp) in Q. assert (E : first_at false k = first_at first (S k)) by (now destruct k). rewrite E in Q. exact Q.
Qed.
Definition tau_at (tau : nat * nat) (ss : list (nat * nat)) (k : nat) : nat * nat := match k with O => tau | S k' => nth k' ss (O, O) end.
Lemma moved_intro bounded G n_in tau ls1 ls2 ss hs : length ls1 = length hs -> length ls2 = length hs -> length ss = length hs ->
  (forall k, (k < length hs)%nat -> let h := nth k hs O in let ab := nth k ss (O, O) in
     (fst ab < G * h)%nat /\ (snd ab < G * h)%nat /\ same_kind bounded h (fst ab) (snd ab) /\
     (forall o i, (o < G * h)%nat -> (i < in_at n_in G hs k)%nat -> layer_weight (nth k ls1 no_layer) o i = layer_weight (nth k ls2 no_layer) (trans ab o) (trans (tau_at tau ss k) i)) /\
     (forall o, (o < G * h)%nat -> layer_bias (nth k ls1 no_layer) o = layer_bias (nth k ls2 no_layer) (trans ab o))) -> moved bounded G n_in tau ls1 ls2 ss hs.
Proof.
  revert n_in tau ls1 ls2 ss; induction hs as [|h hs IH]; intros n_in tau [|l1 ls1] [|l2 ls2] [|ab ss] L1 L2 L3 H; try discriminate; [exact I|]. cbn [moved]. pose proof (H O ltac:(cbn; lia)) as (A & B & K & HW & HB). cbn [nth in_at tau_at] in *.
  split; [exact A|]. split; [exact B|]. split; [exact K|]. split; [exact HW|]. split; [exact HB|]. apply IH; try (cbn in *; lia). intros k Hk. pose proof (H (S k) ltac:(cbn; lia)) as Q. cbn [nth] in Q. rewrite <- in_at_cons in Q. cbn zeta in Q |- *. replace (tau_at ab ss k) with (tau_at tau (ab :: ss) (S k)) by (now destruct k). exact Q.
Qed.

(** ** Places *)
Lemma skip_skip {A} a b (p : list A) : skipn a (skipn b p) = skipn (b + a) p.
Proof. revert p; induction b as [|b IH]; intros [|x p]; try reflexivity; [now destruct a|]. cbn. apply IH. Qed.
Definition off (lss : list (list spl)) (d k : nat) : nat := (length (layers_parameters (concat (firstn d lss))) + length (layers_parameters (firstn k (nth d lss []))))%nat.
Lemma with_layers_at ls p k : (k < length ls)%nat -> nth k (with_layers ls p) no_layer = with_layer (nth k ls no_layer) (skipn (length (layers_parameters (firstn k ls))) p).
Proof.
  revert p k; induction ls as [|l ls IH]; intros p k Hk; [cbn in Hk; lia|]. cbn [with_layers]. destruct k as [|k]; [reflexivity|]. change (firstn (S k) (l :: ls)) with (l :: firstn k ls). rewrite layers_size. cbn [nth]. rewrite IH by (cbn in Hk; lia). now rewrite skip_skip.
Qed.
Lemma with_stacks_at lss p d k : (d < length lss)%nat -> (k < length (nth d lss []))%nat -> nth k (nth d (with_stacks lss p) []) no_layer = with_layer (nth k (nth d lss []) no_layer) (skipn (off lss d k) p).
Proof.
  revert p d; induction lss as [|ls lss IH]; intros p d Hd Hk; [cbn in Hd; lia|]. cbn [with_stacks]. destruct d as [|d].
  - cbn [nth] in *. unfold off. cbn [firstn concat nth]. now apply with_layers_at.
  - cbn [nth] in *. rewrite IH by (cbn in Hd; lia). unfold off. change (firstn (S d) (ls :: lss)) with (ls :: firstn d lss). cbn [concat nth]. rewrite layers_app, app_length, skip_skip. do 2 f_equal. lia.
Qed.
Lemma off_next lss d k : (k < length (nth d lss []))%nat -> off lss d (S k) = (off lss d k + length (layer_parameters (nth k (nth d lss []) no_layer)))%nat.
Proof.
  intro H. unfold off. set (ls := nth d lss []) in *. rewrite <- Nat.add_assoc. f_equal. revert k H; induction ls as [|l ls IH]; intros k H; [cbn in H; lia|]. destruct k as [|k]; [cbn [firstn nth]; rewrite layers_size; cbn; lia|].
  change (firstn (S (S k)) (l :: ls)) with (l :: firstn (S k) ls). change (firstn (S k) (l :: ls)) with (l :: firstn k ls). rewrite !layers_size. cbn [nth]. rewrite IH by (cbn in H; lia). lia.
Qed.
Lemma off_stack lss d : (d < length lss)%nat -> off lss (S d) 0 = off lss d (length (nth d lss [])).
Proof.
  intro H. unfold off. rewrite firstn_all. change (length (layers_parameters (firstn 0 (nth (S d) lss [])))) with O. rewrite Nat.add_0_r, <- app_length, <- layers_app. do 2 f_equal. revert d H; induction lss as [|ls lss IH]; intros d H; [cbn in H; lia|]. destruct d as [|d]; [cbn [firstn concat nth]; now rewrite app_nil_r|].
  change (firstn (S (S d)) (ls :: lss)) with (ls :: firstn (S d) lss). change (firstn (S d) (ls :: lss)) with (ls :: firstn d lss). cbn [concat nth]. rewrite IH by (cbn in H; lia). now rewrite app_assoc.
Qed.
Lemma off_within lss d k k' : (k <= k' <= length (nth d lss []))%nat -> (off lss d k <= off lss d k')%nat.
Proof. intros [H H']. induction H as [|k' H IH]; [lia|]. rewrite off_next by lia. specialize (IH ltac:(lia)). lia. Qed.
Lemma off_stacks lss d d' : (d <= d' <= length lss)%nat -> (off lss d 0 <= off lss d' 0)%nat.
Proof. intros [H H']. induction H as [|d' H IH]; [lia|]. rewrite off_stack by lia. pose proof (off_within lss d' 0 (length (nth d' lss [])) ltac:(lia)). specialize (IH ltac:(lia)). lia. Qed.
Lemma off_all lss : off lss (length lss) 0 = length (layers_parameters (concat lss)).
Proof. unfold off. rewrite firstn_all. cbn [firstn]. unfold layers_parameters at 2. cbn. apply Nat.add_0_r. Qed.
Lemma off_less lss d k d' k' : (d < length lss)%nat -> (k < length (nth d lss []))%nat -> (d' < length lss)%nat -> (k' < length (nth d' lss []))%nat -> (d < d' \/ d = d' /\ k < k')%nat ->
  (off lss d k + length (layer_parameters (nth k (nth d lss []) no_layer)) <= off lss d' k')%nat.
Proof.
  intros Hd Hk Hd' Hk' L. rewrite <- off_next by exact Hk. destruct L as [L|[-> L]]; [|apply off_within; lia]. pose proof (off_within lss d (S k) (length (nth d lss [])) ltac:(lia)). rewrite <- off_stack in H by exact Hd. pose proof (off_stacks lss (S d) d' ltac:(lia)). pose proof (off_within lss d' 0 k' ltac:(lia)). lia.
Qed.
Lemma off_end lss d k : (d < length lss)%nat -> (k < length (nth d lss []))%nat -> (off lss d k + length (layer_parameters (nth k (nth d lss []) no_layer)) <= length (layers_parameters (concat lss)))%nat.
Proof.
  intros Hd Hk. rewrite <- off_next, <- off_all by exact Hk. pose proof (off_within lss d (S k) (length (nth d lss [])) ltac:(lia)). rewrite <- off_stack in H by exact Hd. pose proof (off_stacks lss (S d) (length lss) ltac:(lia)). lia.
Qed.

Inductive key := KW (d k o i : nat) | KB (d k o : nat).
Definition layer_of (m : mnn) (d k : nat) : spl := nth k (nth d (n_layers m) []) no_layer.
Definition valid (m : mnn) (x : key) : Prop :=
  match x with
  | KW d k o i => (d < n_lv m)%nat /\ (k < length (n_hidden m))%nat /\ (o < sl_out (layer_of m d k))%nat /\ (i < sl_in (layer_of m d k))%nat /\ nth i (nth o (sl_free (layer_of m d k)) []) false = true
  | KB d k o => (d < n_lv m)%nat /\ (k < length (n_hidden m))%nat /\ (o < sl_out (layer_of m d k))%nat /\ nth o (sl_zero_out (layer_of m d k)) false = false
  end.
Definition local (m : mnn) (x : key) : nat :=
  match x with
  | KW d k o i => place (sl_free (layer_of m d k)) o i
  | KB d k o => (length (sl_raw (layer_of m d k)) + ctrue (firstn o (map negb (sl_zero_out (layer_of m d k)))))%nat
  end.
Definition stack_of (x : key) : nat := match x with KW d _ _ _ | KB d _ _ => d end.
Definition level_of (x : key) : nat := match x with KW _ k _ _ | KB _ k _ => k end.
Definition pos (m : mnn) (x : key) : nat := (off (n_layers m) (stack_of x) (level_of x) + local m x)%nat.

(** What the proofs need of a network. *)
Record network (m : mnn) (z : nat -> nat -> bool) : Prop := {
  nw_ok : mnn_ok m;
  nw_wired : forall d, (d < n_lv m)%nat -> wired (z d) (n_separations m) true 1 1 (nth d (n_layers m) []) (n_hidden m) }.
Section Net.
Variables (m : mnn) (z : nat -> nat -> bool).
Hypothesis net : network m z.
Lemma lv_stacks : length (n_layers m) = n_lv m.
Proof. destruct net as [(_ & _ & _ & _ & _ & _ & H & _) _]. exact H. Qed.
Lemma stack_length d : (d < n_lv m)%nat -> length (nth d (n_layers m) []) = length (n_hidden m).
Proof. intro H. exact (wired_length _ _ _ _ _ _ _ (nw_wired _ _ net d H)). Qed.
Lemma hidden_mod : Forall (fun h => (h mod kinds (n_bounded m) = 0)%nat) (n_hidden m).
Proof. destruct net as [(_ & _ & _ & _ & _ & H & _) _]. exact H. Qed.
Lemma hidden_pos : Forall (fun h => (0 < h)%nat) (n_hidden m).
Proof. destruct net as [(_ & _ & _ & H & _) _]. exact H. Qed.
Lemma hidden_some : n_hidden m <> [].
Proof. destruct net as [(_ & _ & _ & _ & H & _) _]. exact H. Qed.
Lemma groups_pos : (0 < n_separations m)%nat.
Proof. destruct net as [(H1 & H2 & _) _]. rewrite <- ngroups_sep. now apply ngroups_pos. Qed.
Definition shape_at d k (Hd : (d < n_lv m)%nat) (Hk : (k < length (n_hidden m))%nat) := wired_at _ _ _ _ _ _ _ k (nw_wired _ _ net d Hd) Hk.
Lemma valid_in x : valid m x -> (stack_of x < n_lv m)%nat /\ (level_of x < length (n_hidden m))%nat.
Proof. destruct x; intros (H1 & H2 & _); now split. Qed.
Lemma local_lt x : valid m x -> (local m x < length (layer_parameters (layer_of m (stack_of x) (level_of x))))%nat.
Proof.
  intro V. rewrite layer_size. destruct x as [d k o i|d k o]; cbn [valid local stack_of level_of] in *.
  - destruct V as (Hd & Hk & Ho & Hi & F). destruct (shape_at d k Hd Hk) as (W & _). fold (layer_of m d k) in W. destruct W as (_ & _ & _ & _ & R & _). rewrite R. pose proof (place_lt _ _ _ F). lia.
  - destruct V as (Hd & Hk & Ho & F). destruct (shape_at d k Hd Hk) as (W & _). fold (layer_of m d k) in W. destruct W as (_ & _ & _ & _ & _ & ZL & B). rewrite B. apply Nat.add_lt_mono_l, ctrue_firstn_lt. rewrite nth_error_map, (nth_error_nth_lt _ o false) by lia. now rewrite F.
Qed.
Lemma pos_lt x : valid m x -> (pos m x < length (layers_parameters (concat (n_layers m))))%nat.
Proof.
  intro V. destruct (valid_in x V) as [Hd Hk]. pose proof (local_lt x V). unfold pos. pose proof (off_end (n_layers m) (stack_of x) (level_of x) ltac:(rewrite lv_stacks; exact Hd) ltac:(rewrite stack_length; assumption)). unfold layer_of in H. lia.
Qed.
Lemma pos_inj x y : valid m x -> valid m y -> pos m x = pos m y -> x = y.
Proof.
  intros V V' E. destruct (valid_in x V) as [Hd Hk]. destruct (valid_in y V') as [Hd' Hk']. pose proof (local_lt x V) as L. pose proof (local_lt y V') as L'. unfold pos in E. unfold layer_of in L, L'.
  assert (S1 : forall a b c e, (a < n_lv m)%nat -> (b < length (n_hidden m))%nat -> (c < n_lv m)%nat -> (e < length (n_hidden m))%nat -> (a < c \/ a = c /\ b < e)%nat -> (off (n_layers m) a b + length (layer_parameters (nth b (nth a (n_layers m) []) no_layer)) <= off (n_layers m) c e)%nat).
  { intros. apply off_less; try (rewrite lv_stacks; assumption); try (rewrite stack_length; assumption). assumption. }
  assert (E1 : stack_of x = stack_of y).
  { destruct (Nat.lt_trichotomy (stack_of x) (stack_of y)) as [Q|[Q|Q]]; [|exact Q|]; [pose proof (S1 (stack_of x) (level_of x) (stack_of y) (level_of y) Hd Hk Hd' Hk' (or_introl Q))|pose proof (S1 (stack_of y) (level_of y) (stack_of x) (level_of x) Hd' Hk' Hd Hk (or_introl Q))]; lia. }
  assert (E2 : level_of x = level_of y).
  { destruct (Nat.lt_trichotomy (level_of x) (level_of y)) as [Q|[Q|Q]]; [|exact Q|]; [pose proof (S1 (stack_of x) (level_of x) (stack_of y) (level_of y) Hd Hk Hd' Hk' (or_intror (conj E1 Q)))|pose proof (S1 (stack_of y) (level_of y) (stack_of x) (level_of x) Hd' Hk' Hd Hk (or_intror (conj (eq_sym E1) Q)))]; lia. }
  rewrite <- E1, <- E2 in E. assert (EL : local m x = local m y) by lia. clear E L L' S1.
  assert (RW : forall d k o i, valid m (KW d k o i) -> (local m (KW d k o i) < length (sl_raw (layer_of m d k)))%nat).
  { intros d k o i (A & B & _ & _ & F). destruct (shape_at d k A B) as (W & _). fold (layer_of m d k) in W. destruct W as (_ & _ & _ & _ & R & _). cbn [local]. rewrite R. now apply place_lt. }
  destruct x as [d k o i|d k o], y as [d' k' o' i'|d' k' o']; cbn [stack_of level_of] in E1, E2; subst d' k'.
  - cbn [local] in EL. destruct V as (_ & _ & _ & _ & F). destruct V' as (_ & _ & _ & _ & F'). now destruct (place_inj _ _ _ _ _ F F' EL) as [-> ->].
  - pose proof (RW _ _ _ _ V). cbn [local] in *. lia.
  - pose proof (RW _ _ _ _ V'). cbn [local] in *. lia.
  - cbn [local] in EL. f_equal. destruct V as (A & B & Ho & F). destruct V' as (_ & _ & Ho' & F'). destruct (shape_at d k A B) as (W & _). fold (layer_of m d k) in W. destruct W as (_ & _ & _ & _ & _ & ZL & _).
    assert (T : forall a, (a < sl_out (layer_of m d k))%nat -> nth a (sl_zero_out (layer_of m d k)) false = false -> nth a (map negb (sl_zero_out (layer_of m d k))) false = true) by (intros a Ha Fa; apply nth_error_nth; rewrite nth_error_map, (nth_error_nth_lt _ a false) by lia; now rewrite Fa).
    destruct (Nat.lt_trichotomy o o') as [Q|[Q|Q]]; [|exact Q|]; [pose proof (firstn_strict _ _ _ (T o Ho F) Q)|pose proof (firstn_strict _ _ _ (T o' Ho' F') Q)]; lia.
Qed.
(** The weights and biases read from the list. *)
Lemma nth_skip {A} a (p : list A) j x : nth j (skipn a p) x = nth (a + j) p x.
Proof. revert p; induction a as [|a IH]; intros [|y p]; try reflexivity; [now destruct j|]. apply IH. Qed.
Lemma nth_take {A} a (p : list A) j x : (j < a)%nat -> nth j (firstn a p) x = nth j p x.
Proof. revert p j; induction a as [|a IH]; intros [|y p] [|j] H; try reflexivity; try lia. cbn. apply IH. lia. Qed.
Lemma weight_read p d k o i : (length (net_parameters m) <= length p)%nat -> (d < n_lv m)%nat -> (k < length (n_hidden m))%nat ->
  layer_weight (layer_of (with_net m p) d k) o i = if nth i (nth o (sl_free (layer_of m d k)) []) false then softplus (nth (pos m (KW d k o i)) p 0) else 0.
Proof.
  intros L Hd Hk. destruct (shape_at d k Hd Hk) as ((_ & SP & _ & _ & R & _) & _). unfold layer_of at 1. cbn [with_net n_layers]. rewrite with_stacks_at by (rewrite ?lv_stacks, ?stack_length; assumption). fold (layer_of m d k) in *.
  unfold layer_weight, with_layer. cbn [sl_softplus sl_free sl_raw]. rewrite SP, slope_place. destruct (nth i (nth o (sl_free (layer_of m d k)) []) false) eqn:F; [|reflexivity]. pose proof (place_lt _ _ _ F) as PL.
  assert (OE : (off (n_layers m) d k + length (layer_parameters (layer_of m d k)) <= length (layers_parameters (concat (n_layers m))))%nat) by (apply off_end; rewrite ?lv_stacks, ?stack_length; assumption). rewrite layer_size in OE. unfold net_parameters in L. rewrite app_length in L.
  rewrite nth_map_lt by (rewrite firstn_length, skipn_length; lia). rewrite nth_take by lia. rewrite nth_skip. reflexivity.
Qed.
Lemma bias_read p d k o : (length (net_parameters m) <= length p)%nat -> (d < n_lv m)%nat -> (k < length (n_hidden m))%nat -> (o < sl_out (layer_of m d k))%nat ->
  layer_bias (layer_of (with_net m p) d k) o = if nth o (sl_zero_out (layer_of m d k)) false then 0 else nth (pos m (KB d k o)) p 0.
Proof.
  intros L Hd Hk Ho. destruct (shape_at d k Hd Hk) as ((_ & _ & _ & _ & _ & ZL & B) & _). unfold layer_of at 1. cbn [with_net n_layers]. rewrite with_stacks_at by (rewrite ?lv_stacks, ?stack_length; assumption). fold (layer_of m d k) in *.
  unfold layer_bias, with_layer. cbn [sl_zero_out sl_bias]. destruct (nth o (sl_zero_out (layer_of m d k)) false) eqn:F; [reflexivity|].
  assert (Q : (ctrue (firstn o (map negb (sl_zero_out (layer_of m d k)))) < length (sl_bias (layer_of m d k)))%nat) by (rewrite B; apply ctrue_firstn_lt; rewrite nth_error_map, (nth_error_nth_lt _ o false) by lia; now rewrite F).
  rewrite nth_take by exact Q. rewrite !nth_skip. unfold pos. cbn [stack_of level_of local]. now rewrite ?Nat.add_assoc.
Qed.
End Net.
