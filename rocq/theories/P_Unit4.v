(** Lemmas: hidden units of the same kind are exchangeable. *)
From Coq Require Import FunctionalExtensionality.
From Verif Require Import Base BaseFacts RBase RFacts M_Data M_CV M_Logit M_Mono M_Lik M_Est M_Train M_Mix M_Quad M_Adam P_Logit P_Sym1 P_Mono1 P_Mono2 P_Mono3 P_Mono4 P_Mono5 P_Twin1 P_Twin2 P_Twin3 P_Unit1 P_Unit2 P_Unit3 S_Logit S_Mono S_Twin S_Unit.
Import List.
Local Open Scope R_scope.

Definition h_at (m : mnn) (k : nat) : nat := nth k (n_hidden m) O.
Definition related (m : mnn) (x y : key) : Prop :=
  match x, y with
  | KW d k o i, KW d' k' o' i' => d = d' /\ k = k' /\ same_kind (n_bounded m) (h_at m k) o o' /\ match k with O => i = i' | S j => same_kind (n_bounded m) (h_at m j) i i' end
  | KB d k o, KB d' k' o' => d = d' /\ k = k' /\ same_kind (n_bounded m) (h_at m k) o o'
  | _, _ => False end.
Definition unit_pairs (m : mnn) (u v : nat) : Prop := exists x y, valid m x /\ valid m y /\ related m x y /\ u = pos m x /\ v = pos m y.
(** An exchange of two units in every layer. *)
Definition before (s : nat -> nat -> nat * nat) (d k : nat) : nat * nat := match k with O => (O, O) | S j => s d j end.
Definition carry (s : nat -> nat -> nat * nat) (x : key) : key :=
  match x with KW d k o i => KW d k (trans (s d k) o) (trans (before s d k) i) | KB d k o => KB d k (trans (s d k) o) end.
Definition legal_swap (m : mnn) (s : nat -> nat -> nat * nat) : Prop :=
  forall d k, (d < n_lv m)%nat -> (k < length (n_hidden m))%nat -> (fst (s d k) < n_separations m * h_at m k)%nat /\ (snd (s d k) < n_separations m * h_at m k)%nat /\ same_kind (n_bounded m) (h_at m k) (fst (s d k)) (snd (s d k)).
(** The exchange that brings [x] to [y]. *)
Definition swap_of (x y : key) (d k : nat) : nat * nat :=
  match x, y with
  | KW d0 k0 o i, KW _ _ o' i' => if (d =? d0)%nat then if (k =? k0)%nat then (o, o') else if (S k =? k0)%nat then (i, i') else (O, O) else (O, O)
  | KB d0 k0 o, KB _ _ o' => if ((d =? d0) && (k =? k0))%nat%bool then (o, o') else (O, O)
  | _, _ => (O, O) end.

Lemma trans_twice ab k : trans ab (trans ab k) = k.
Proof. apply transpose_twice. Qed.
Lemma trans_first a b : trans (a, b) a = b.
Proof. unfold trans, transpose. cbn [fst snd]. now rewrite Nat.eqb_refl. Qed.
Lemma trans_id k : trans (O, O) k = k.
Proof. unfold trans, transpose. cbn [fst snd]. destruct (Nat.eqb_spec k 0); [now symmetry|reflexivity]. Qed.
Lemma carry_twice s x : carry s (carry s x) = x.
Proof. destruct x; cbn [carry]; now rewrite ?trans_twice. Qed.
Lemma wired_firstn z G first n_in hp ls hs j : wired z G first n_in hp ls hs -> wired z G first n_in hp (firstn j ls) (firstn j hs).
Proof.
  revert first n_in hp hs j; induction ls as [|l ls IH]; intros first n_in hp [|h hs] [|j] H; cbn [wired firstn] in *; try contradiction; try exact I. destruct H as (W & W1 & W2 & W3 & W4 & W5 & W6). repeat (split; [assumption|]). now apply IH.
Qed.
Lemma moved_firstn bounded G n_in tau ls1 ls2 ss hs j : moved bounded G n_in tau ls1 ls2 ss hs -> moved bounded G n_in tau (firstn j ls1) (firstn j ls2) (firstn j ss) (firstn j hs).
Proof.
  revert n_in tau ls2 ss hs j; induction ls1 as [|l1 ls1 IH]; intros n_in tau [|l2 ls2] [|ab ss] [|h hs] [|j] H; cbn [moved firstn] in *; try contradiction; try exact I. destruct H as (A & B & K & HW & HB & HV). repeat (split; [assumption|]). now apply IH.
Qed.
Lemma last_firstn {A} (l : list A) k x y : (k < length l)%nat -> last (firstn (S k) l) x = nth k l y.
Proof.
  revert k; induction l as [|a l IH]; intros k H; [cbn in H; lia|]. destruct k as [|k]; [reflexivity|]. cbn [nth]. rewrite <- IH by (cbn in H; lia). change (firstn (S (S k)) (a :: l)) with (a :: firstn (S k) l). destruct l as [|b l]; [cbn in H; lia|]. reflexivity.
Qed.
Section Exchange.
Variables (m : mnn) (z : nat -> nat -> bool).
Hypothesis net : network m z.
Lemma network_with p : (length (net_parameters m) <= length p)%nat -> network (with_net m p) z.
Proof.
  intro H. pose proof (with_net_same m p H) as S. constructor; [exact (same_mnn_ok _ _ S (nw_ok _ _ net))|]. intros d Hd. destruct S as (_ & _ & _ & _ & _ & _ & _ & _ & _ & F & _). apply (same_wired _ _ _ _ _ (nth d (n_layers m) [])); [|exact (nw_wired _ _ net d Hd)].
  apply (Forall2_nth (Forall2 same_layer)); [exact F|rewrite (lv_stacks m z net); exact Hd].
Qed.
Lemma h_pos k : (k < length (n_hidden m))%nat -> (0 < h_at m k)%nat.
Proof. intro H. pose proof (hidden_pos m z net) as F. rewrite Forall_forall in F. apply F, nth_In, H. Qed.
Lemma before_in s d k : legal_swap m s -> (d < n_lv m)%nat -> (k < length (n_hidden m))%nat -> (fst (before s d k) < in_at 1 (n_separations m) (n_hidden m) k)%nat /\ (snd (before s d k) < in_at 1 (n_separations m) (n_hidden m) k)%nat.
Proof. intros L Hd Hk. destruct k as [|k]; cbn [before in_at fst snd]; [lia|]. destruct (L d k Hd ltac:(lia)) as (A & B & _). now split. Qed.
Lemma free_kind d k o o' i i' : (d < n_lv m)%nat -> (k < length (n_hidden m))%nat -> (o < n_separations m * h_at m k)%nat -> (o' < n_separations m * h_at m k)%nat -> (i < in_at 1 (n_separations m) (n_hidden m) k)%nat -> (i' < in_at 1 (n_separations m) (n_hidden m) k)%nat ->
  (o / h_at m k = o' / h_at m k)%nat -> (match k with O => True | S j => (i / h_at m j = i' / h_at m j)%nat end) -> nth i (nth o (sl_free (layer_of m d k)) []) false = nth i' (nth o' (sl_free (layer_of m d k)) []) false.
Proof.
  intros Hd Hk Ho Ho' Hi Hi' E E'. destruct (shape_at m z net d k Hd Hk) as (_ & _ & _ & _ & _ & F). fold (layer_of m d k) in F. fold (h_at m k) in F. rewrite !F by assumption. rewrite E. destruct k as [|k]; cbn [first_at hp_at]; [reflexivity|]. fold (h_at m k). now rewrite E'.
Qed.
Lemma carry_valid s x : legal_swap m s -> valid m x -> valid m (carry s x).
Proof.
  intros L V. destruct x as [d k o i|d k o]; cbn [carry valid] in *.
  - destruct V as (Hd & Hk & Ho & Hi & F). destruct (shape_at m z net d k Hd Hk) as (_ & I1 & O1 & _). fold (layer_of m d k) in I1, O1. fold (h_at m k) in O1. rewrite I1 in *. rewrite O1 in *. destruct (L d k Hd Hk) as (A & B & K). destruct (before_in s d k L Hd Hk) as [A' B'].
    assert (To : (trans (s d k) o < n_separations m * h_at m k)%nat) by (now apply transpose_lt). assert (Ti : (trans (before s d k) i < in_at 1 (n_separations m) (n_hidden m) k)%nat) by (now apply transpose_lt).
    repeat (split; [assumption|]). rewrite <- F. apply free_kind; try assumption; [symmetry; exact (proj1 (trans_kind _ _ _ o K))|]. destruct k as [|k]; [exact I|]. cbn [before]. destruct (L d k Hd ltac:(lia)) as (_ & _ & K'). symmetry. exact (proj1 (trans_kind _ _ _ i K')).
  - destruct V as (Hd & Hk & Ho & F). destruct (shape_at m z net d k Hd Hk) as (_ & I1 & O1 & _ & Z & _). fold (layer_of m d k) in I1, O1, Z. fold (h_at m k) in O1, Z. rewrite O1 in *. destruct (L d k Hd Hk) as (A & B & K).
    assert (To : (trans (s d k) o < n_separations m * h_at m k)%nat) by (now apply transpose_lt). repeat (split; [assumption|]). rewrite Z in F by assumption. rewrite Z by assumption. rewrite <- (proj1 (trans_kind _ _ _ o K)). exact F.
Qed.
Lemma carry_related s x : legal_swap m s -> valid m x -> related m x (carry s x).
Proof.
  intros L V. destruct (valid_in _ x V) as [Hd Hk]. destruct x as [d k o i|d k o]; cbn [carry related stack_of level_of] in *; destruct (L d k Hd Hk) as (_ & _ & K).
  - split; [reflexivity|]. split; [reflexivity|]. split; [now apply trans_kind|]. destruct k as [|k]; cbn [before]; [now rewrite trans_id|]. destruct (L d k Hd ltac:(lia)) as (_ & _ & K'). now apply trans_kind.
  - split; [reflexivity|]. split; [reflexivity|]. now apply trans_kind.
Qed.
Lemma swap_legal x y : valid m x -> valid m y -> related m x y -> legal_swap m (swap_of x y).
Proof.
  intros V V' Q d k Hd Hk. pose proof (groups_pos m z net) as HG. pose proof (h_pos k Hk) as HH. assert (Z : (fst (O, O) < n_separations m * h_at m k)%nat /\ (snd (O, O) < n_separations m * h_at m k)%nat /\ same_kind (n_bounded m) (h_at m k) (fst (O, O)) (snd (O, O))) by (cbn [fst snd]; split; [nia|split; [nia|now split]]).
  destruct x as [d0 k0 o i|d0 k0 o], y as [d1 k1 o' i'|d1 k1 o']; cbn [related] in Q; try contradiction; cbn [swap_of].
  - destruct Q as (<- & <- & Q1 & Q2). destruct V as (A & B & Ho & Hi & _). destruct V' as (_ & _ & Ho' & Hi' & _). destruct (shape_at m z net d0 k0 A B) as (_ & I1 & O1 & _). fold (layer_of m d0 k0) in I1, O1. fold (h_at m k0) in O1. rewrite I1 in *. rewrite O1 in *.
    destruct (d =? d0)%nat; [|exact Z]. destruct (Nat.eqb_spec k k0) as [->|N]; [cbn [fst snd]; auto|]. destruct (Nat.eqb_spec (S k) k0) as [<-|N']; [|exact Z]. cbn [fst snd in_at] in *. auto.
  - destruct Q as (<- & <- & Q1). destruct V as (A & B & Ho & _). destruct V' as (_ & _ & Ho' & _). destruct (shape_at m z net d0 k0 A B) as (_ & _ & O1 & _). fold (layer_of m d0 k0) in O1. fold (h_at m k0) in O1. rewrite O1 in *.
    destruct (d =? d0)%nat; [|exact Z]. destruct (Nat.eqb_spec k k0) as [->|N]; [cbn [fst snd andb]; auto|exact Z].
Qed.
Lemma swap_carries x y : valid m x -> valid m y -> related m x y -> carry (swap_of x y) x = y.
Proof.
  intros V V' Q. destruct x as [d k o i|d k o], y as [d1 k1 o' i'|d1 k1 o']; cbn [related] in Q; try contradiction; cbn [carry].
  - destruct Q as (<- & <- & Q1 & Q2). cbn [swap_of]. rewrite !Nat.eqb_refl, trans_first. f_equal. destruct k as [|k]; cbn [before]; [now rewrite trans_id|]. cbn [swap_of]. rewrite !Nat.eqb_refl. destruct (Nat.eqb_spec k (S k)); [lia|]. apply trans_first.
  - destruct Q as (<- & <- & Q1). cbn [swap_of]. rewrite !Nat.eqb_refl. cbn [andb]. now rewrite trans_first.
Qed.
Lemma carried_read p x y w t : (length (net_parameters m) <= length p)%nat -> alike (unit_pairs m) p -> valid m x -> valid m y -> related m x y -> valid m w ->
  nth (pos m w) (upd (pos m x) t p) 0 = nth (pos m (carry (swap_of x y) w)) (upd (pos m y) t p) 0.
Proof.
  intros L A V V' Q VW. pose proof (swap_legal x y V V' Q) as LS. pose proof (carry_valid _ w LS VW) as VC. assert (LP : forall a, valid m a -> (pos m a < length p)%nat) by (intros a Va; pose proof (pos_lt m z net a Va); unfold net_parameters in L; rewrite app_length in L; lia).
  rewrite !nth_upd by (now apply LP). destruct (Nat.eqb_spec (pos m x) (pos m w)) as [E|N].
  - apply (pos_inj m z net) in E; [|assumption|assumption]. subst w. rewrite (swap_carries x y V V' Q), Nat.eqb_refl. reflexivity.
  - destruct (Nat.eqb_spec (pos m y) (pos m (carry (swap_of x y) w))) as [E|_].
    + exfalso. apply (pos_inj m z net) in E; [|assumption|assumption]. apply N. f_equal. rewrite <- (carry_twice (swap_of x y) x), (swap_carries x y V V' Q). rewrite E at 2. apply carry_twice.
    + apply A. exists w, (carry (swap_of x y) w). split; [exact VW|]. split; [exact VC|]. split; [now apply carry_related|]. now split.
Qed.
(** Networks whose parameters are carried along. *)
Lemma stack_moved s p1 p2 d : legal_swap m s -> (length (net_parameters m) <= length p1)%nat -> (length (net_parameters m) <= length p2)%nat ->
  (forall w, valid m w -> nth (pos m w) p1 0 = nth (pos m (carry s w)) p2 0) -> (d < n_lv m)%nat ->
  moved (n_bounded m) (n_separations m) 1 (O, O) (nth d (n_layers (with_net m p1)) []) (nth d (n_layers (with_net m p2)) []) (map (s d) (seq 0 (length (n_hidden m)))) (n_hidden m).
Proof.
  intros L L1 L2 H Hd. apply moved_intro; [exact (wired_length _ _ _ _ _ _ _ (nw_wired _ _ (network_with p1 L1) d Hd))|exact (wired_length _ _ _ _ _ _ _ (nw_wired _ _ (network_with p2 L2) d Hd))|now rewrite map_length, seq_length|].
  intros k Hk. fold (layer_of (with_net m p1) d k). fold (layer_of (with_net m p2) d k). fold (h_at m k). rewrite (nth_map_seq (s d) _ k (O, O) Hk). cbn zeta.
  destruct (L d k Hd Hk) as (A & B & K). split; [exact A|]. split; [exact B|]. split; [exact K|]. destruct (shape_at m z net d k Hd Hk) as (_ & I1 & O1 & _ & Z & _). fold (layer_of m d k) in I1, O1, Z. fold (h_at m k) in O1, Z. split.
  - intros o i Ho Hi. assert (ET : tau_at (O, O) (map (s d) (seq 0 (length (n_hidden m)))) k = before s d k) by (destruct k as [|k]; [reflexivity|]; cbn [tau_at before]; apply (nth_map_seq (s d)); lia). rewrite ET. rewrite !(weight_read m z net) by assumption.
    destruct (before_in s d k L Hd Hk) as [A' B'].
    assert (To : (trans (s d k) o < n_separations m * h_at m k)%nat) by (now apply transpose_lt). assert (Ti : (trans (before s d k) i < in_at 1 (n_separations m) (n_hidden m) k)%nat) by (now apply transpose_lt).
    assert (EF : nth i (nth o (sl_free (layer_of m d k)) []) false = nth (trans (before s d k) i) (nth (trans (s d k) o) (sl_free (layer_of m d k)) []) false).
    { apply free_kind; try assumption; [exact (proj1 (trans_kind _ _ _ o K))|]. destruct k as [|k]; [exact I|]. cbn [before]. destruct (L d k Hd ltac:(lia)) as (_ & _ & K'). exact (proj1 (trans_kind _ _ _ i K')). }
    rewrite <- EF. destruct (nth i (nth o (sl_free (layer_of m d k)) []) false) eqn:F; [|reflexivity]. f_equal. apply (H (KW d k o i)). cbn [valid]. rewrite I1, O1. auto 6.
  - intros o Ho. assert (To : (trans (s d k) o < n_separations m * h_at m k)%nat) by (now apply transpose_lt). rewrite !(bias_read m z net) by (try assumption; rewrite O1; assumption).
    assert (EF : nth o (sl_zero_out (layer_of m d k)) false = nth (trans (s d k) o) (sl_zero_out (layer_of m d k)) false) by (rewrite !Z by assumption; f_equal; exact (proj1 (trans_kind _ _ _ o K))). rewrite <- EF. destruct (nth o (sl_zero_out (layer_of m d k)) false) eqn:F; [reflexivity|]. apply (H (KB d k o)). cbn [valid]. rewrite O1. auto.
Qed.
Lemma same_forward s p1 p2 : legal_swap m s -> (length (net_parameters m) <= length p1)%nat -> (length (net_parameters m) <= length p2)%nat ->
  (forall w, valid m w -> nth (pos m w) p1 0 = nth (pos m (carry s w)) p2 0) -> skipn (length (layers_parameters (concat (n_layers m)))) p1 = skipn (length (layers_parameters (concat (n_layers m)))) p2 ->
  mnn_forward1 (with_net m p1) = mnn_forward1 (with_net m p2).
Proof.
  intros L L1 L2 H HS. apply functional_extensionality. intro t. unfold mnn_forward1.
  assert (E : forall d, In d (seq 0 (n_lv m)) -> mnn_lv_output (with_net m p1) d (nth d t 0) = mnn_lv_output (with_net m p2) d (nth d t 0)).
  { intros d Hd. apply in_seq in Hd. unfold mnn_lv_output. cbn [n_bounded with_net n_layers n_hidden n_negative n_rel n_sep_items n_neg n_max n_cats n_items].
    destruct (sums_moved (n_bounded m) (z d) (n_separations m) 1 _ _ _ _ (nth d t 0) (O, O) true 1 (groups_pos m z net) (nw_wired _ _ (network_with p1 L1) d ltac:(cbn; lia)) (nw_wired _ _ (network_with p2 L2) d ltac:(cbn; lia)) (hidden_mod m z net) (hidden_some m z net) (hidden_pos m z net) (stack_moved s p1 p2 d L L1 L2 H ltac:(lia)) eq_refl eq_refl) as (y1 & y2 & Y1 & Y2 & E).
    cbn [with_net n_layers] in Y1, Y2. rewrite Y1, Y2. cbn [bind]. cbn [with_net n_hidden] in E. rewrite E, HS. reflexivity. }
  change (n_lv (with_net m p1)) with (n_lv m). change (n_lv (with_net m p2)) with (n_lv m).
  assert (EM : mapM (fun d => mnn_lv_output (with_net m p1) d (nth d t 0)) (seq 0 (n_lv m)) = mapM (fun d => mnn_lv_output (with_net m p2) d (nth d t 0)) (seq 0 (n_lv m))).
  { revert E. generalize (seq 0 (n_lv m)). induction l as [|d l IH]; intro E; [reflexivity|]. cbn [mapM]. rewrite E by now left. rewrite IH by (intros e He; apply E; now right). reflexivity. }
  rewrite EM. cbn [with_net n_key n_cats n_bias n_sep_items n_max n_separations n_items]. now rewrite HS.
Qed.
Lemma exchange {B} (loss : B -> list R -> (list R -> result (list ext)) -> R) b n : (length (net_parameters m) <= n)%nat -> exchangeable n (unit_pairs m) (batch_loss m loss b).
Proof.
  intros HN p u v t HL A (x & y & V & V' & Q & -> & ->). unfold batch_loss. pose proof (pos_lt m z net x V) as P1. pose proof (pos_lt m z net y V') as P2. assert (LN : length (net_parameters m) = (length (layers_parameters (concat (n_layers m))) + length (n_bias m ++ concat (n_neg m)))%nat) by (unfold net_parameters; now rewrite app_length).
  assert (SK : forall c u, (u < c)%nat -> skipn c (upd u t p) = skipn c p).
  { clear. induction p as [|a p IH]; intros c u H; [destruct c, u; reflexivity|]. destruct c as [|c]; [lia|]. destruct u as [|u]; [reflexivity|]. cbn. apply IH. lia. }
  rewrite !SK by lia. f_equal. apply (same_forward (swap_of x y)); try (rewrite upd_length; lia); [now apply swap_legal| |now rewrite !SK by lia]. intros w VW. apply carried_read; try assumption. lia.
Qed.
Lemma pairs_inside n u v : (length (net_parameters m) <= n)%nat -> unit_pairs m u v -> (u < n)%nat /\ (v < n)%nat.
Proof.
  intros H (x & y & V & V' & _ & -> & ->). pose proof (pos_lt m z net x V). pose proof (pos_lt m z net y V'). unfold net_parameters in H. rewrite app_length in H. lia.
Qed.
Lemma copies_of_alike p : (length (net_parameters m) <= length p)%nat -> alike (unit_pairs m) p -> copies (with_net m p).
Proof.
  intros L A d k o o' t Hd Hk. cbn [with_net n_lv n_hidden n_bounded] in Hd, Hk |- *. change (n_separations (with_net m p)) with (n_separations m). cbn zeta. fold (h_at m k). intros Ho Ho' K. unfold unit_values. cbn [n_bounded with_net n_layers].
  set (s := fun d' k' : nat => if (k' =? k)%nat then (o, o') else (O, O)).
  assert (LS : legal_swap m s).
  { intros d' k' Hd' Hk'. unfold s. destruct (Nat.eqb_spec k' k) as [->|N]; [now cbn|]. cbn [fst snd]. pose proof (groups_pos m z net). pose proof (h_pos k' Hk'). split; [nia|]. split; [nia|now split]. }
  assert (HA : forall w, valid m w -> nth (pos m w) p 0 = nth (pos m (carry s w)) p 0) by (intros w V; apply A; exists w, (carry s w); split; [exact V|]; split; [now apply carry_valid|]; split; [now apply carry_related|now split]).
  pose proof (stack_moved s p p d LS L L HA Hd) as HV. pose proof (nw_wired _ _ (network_with p L) d Hd) as W. cbn [with_net n_layers n_hidden] in HV, W. change (n_separations (with_net m p)) with (n_separations m) in W.
  apply (moved_firstn _ _ _ _ _ _ _ _ (S k)) in HV. apply (wired_firstn _ _ _ _ _ _ _ (S k)) in W.
  destruct (run_moved (n_bounded m) (z d) (n_separations m) true 1 1 (O, O) _ _ (firstn (S k) (map (s d) (seq 0 (length (n_hidden m))))) _ [t] [t] W W) as (y1 & y2 & Y1 & Y2 & L1 & L2 & E); try exact HV; try reflexivity; try (cbn; lia).
  { pose proof (hidden_mod m z net) as F. clear - F. revert k; induction F as [|h hs H F IH]; intro k; [constructor|]. change (firstn (S k) (h :: hs)) with (h :: firstn k hs). constructor; [exact H|]. destruct k as [|k]; [constructor|apply IH]. }
  { intros i Hi. replace i with O by lia. reflexivity. }
  rewrite Y1 in Y2. injection Y2 as <-. rewrite Y1.
  assert (EL : last (map (Nat.mul (n_separations m)) (firstn (S k) (n_hidden m))) 1%nat = (n_separations m * h_at m k)%nat).
  { rewrite <- firstn_map. rewrite (last_firstn _ k _ (n_separations m * 0)%nat) by now rewrite map_length. apply (map_nth (Nat.mul (n_separations m))). }
  rewrite EL in E. rewrite E by exact Ho. f_equal. rewrite (last_firstn _ k _ (O, O)) by now rewrite map_length, seq_length. rewrite (nth_map_seq (s d) _ k (O, O) Hk). unfold s. rewrite Nat.eqb_refl. apply trans_first.
Qed.
End Exchange.
