(** Lemmas: exchanging units of the same kind leaves the sums of the last layer alone. *)
From Verif Require Import Base BaseFacts RBase RFacts M_Data M_CV M_Logit M_Mono M_Lik M_Est M_Train M_Mix M_Quad M_Adam P_Logit P_Mono1 P_Mono2 P_Mono3 P_Mono4 P_Mono5 P_Twin1 P_Twin2 P_Unit1 S_Logit S_Mono S_Twin S_Unit.
Import List.
Local Open Scope R_scope.

Lemma period_kinds bounded : period bounded = kinds bounded.
Proof. reflexivity. Qed.
Lemma act_kind bounded o o' : (o mod kinds bounded = o' mod kinds bounded)%nat -> act bounded o = act bounded o'.
Proof. unfold act, kinds. destruct bounded; now intros ->. Qed.
Lemma kinds_pos bounded : (0 < kinds bounded)%nat.
Proof. destruct bounded; cbn; lia. Qed.
Lemma layer_step bounded l x G h : spl_wf l -> sl_out l = (G * h)%nat -> (h mod kinds bounded = 0)%nat -> length x = sl_in l ->
  exists y, split_activation bounded (spl_forward l x) = Ok y /\ length y = (G * h)%nat /\
    forall o, (o < G * h)%nat -> nth o y 0 = act bounded o (predictor (sl_in l) (layer_weight l o) x + layer_bias l o).
Proof.
  intros W HO HM HX. assert (L : length (spl_forward l x) = (G * h)%nat) by (rewrite spl_forward_length; auto).
  destruct (split_activation_spec bounded (spl_forward l x)) as (y & Y1 & Y2 & Y3).
  { rewrite period_kinds, L, Nat.mul_mod, HM, Nat.mul_0_r by (pose proof (kinds_pos bounded); lia). apply Nat.mod_0_l. pose proof (kinds_pos bounded). lia. }
  exists y. split; [exact Y1|]. split; [lia|]. intros o Ho. rewrite Y3 by lia. f_equal. apply nth_error_nth. apply spl_forward_spec; [exact W|exact HX|lia].
Qed.
Definition trans (ab : nat * nat) : nat -> nat := transpose (fst ab) (snd ab).
Fixpoint moved (bounded : bool) (G n_in : nat) (tau : nat * nat) (ls1 ls2 : list spl) (ss : list (nat * nat)) (hs : list nat) : Prop :=
  match ls1, ls2, ss, hs with
  | [], [], [], [] => True
  | l1 :: ls1', l2 :: ls2', ab :: ss', h :: hs' =>
      (fst ab < G * h)%nat /\ (snd ab < G * h)%nat /\ same_kind bounded h (fst ab) (snd ab) /\
      (forall o i, (o < G * h)%nat -> (i < n_in)%nat -> layer_weight l1 o i = layer_weight l2 (trans ab o) (trans tau i)) /\
      (forall o, (o < G * h)%nat -> layer_bias l1 o = layer_bias l2 (trans ab o)) /\
      moved bounded G (G * h) ab ls1' ls2' ss' hs'
  | _, _, _, _ => False
  end.
Lemma trans_kind bounded h ab o : same_kind bounded h (fst ab) (snd ab) -> same_kind bounded h o (trans ab o).
Proof. intros [H1 H2]. unfold trans, transpose. destruct (Nat.eqb_spec o (fst ab)) as [->|]; [now split|]. destruct (Nat.eqb_spec o (snd ab)) as [->|]; now split. Qed.
Lemma run_moved bounded z G first n_in hp tau ls1 ls2 ss hs x1 x2 :
  wired z G first n_in hp ls1 hs -> wired z G first n_in hp ls2 hs -> Forall (fun h => (h mod kinds bounded = 0)%nat) hs -> moved bounded G n_in tau ls1 ls2 ss hs ->
  (fst tau < n_in)%nat -> (snd tau < n_in)%nat -> length x1 = n_in -> length x2 = n_in -> (forall i, (i < n_in)%nat -> nth i x1 0 = nth (trans tau i) x2 0) ->
  exists y1 y2, run_layers bounded ls1 x1 = Ok y1 /\ run_layers bounded ls2 x2 = Ok y2 /\ length y1 = last (map (Nat.mul G) hs) n_in /\ length y2 = last (map (Nat.mul G) hs) n_in /\
    forall o, (o < last (map (Nat.mul G) hs) n_in)%nat -> nth o y1 0 = nth (trans (last ss tau) o) y2 0.
Proof.
  revert first n_in hp tau ls2 ss hs x1 x2; induction ls1 as [|l1 ls1 IH]; intros first n_in hp tau [|l2 ls2] [|ab ss] [|h hs] x1 x2 W1 W2 HM HV T1 T2 X1 X2 HX; cbn [moved wired] in *; try contradiction.
  - exists x1, x2. cbn [run_layers map last]. auto 6.
  - destruct W1 as (W & I1 & O1 & H0 & _ & _ & R1). destruct W2 as (W' & I2 & O2 & _ & _ & _ & R2). destruct HV as (A & B & K & HW & HB & HV). pose proof (Forall_inv HM) as M1. apply Forall_inv_tail in HM.
    destruct (layer_step bounded l1 x1 G h W O1 M1 ltac:(lia)) as (y1 & Y1 & L1 & N1). destruct (layer_step bounded l2 x2 G h W' O2 M1 ltac:(lia)) as (y2 & Y2 & L2 & N2).
    assert (HY : forall o, (o < G * h)%nat -> nth o y1 0 = nth (trans ab o) y2 0).
    { intros o Ho. rewrite N1, N2 by (try assumption; now apply transpose_lt). destruct (trans_kind bounded h ab o K) as [_ KM]. rewrite (act_kind bounded _ _ KM). f_equal. f_equal; [|now apply HB].
      unfold predictor. rewrite I1, I2. rewrite <- (sumn_transpose (fst tau) (snd tau) n_in (fun i => layer_weight l2 (trans ab o) i * nth i x2 0)) by assumption. apply sumn_ext. intros i Hi. fold (trans tau i). now rewrite HW, HX. }
    destruct (IH false (G * h)%nat h ab ls2 ss hs y1 y2 R1 R2 HM HV A B L1 L2 HY) as (u1 & u2 & U1 & U2 & U3 & U4 & U5). exists u1, u2. cbn [run_layers]. rewrite Y1, Y2. cbn [bind].
    assert (E1 : last (map (Nat.mul G) (h :: hs)) n_in = last (map (Nat.mul G) hs) (G * h)%nat) by (cbn [map last]; destruct hs as [|h2 hs]; [reflexivity|cbn [map]]; clear; revert h2; induction hs as [|h3 hs IH]; intro h2; [reflexivity|cbn [map last] in *; apply IH]).
    assert (E2 : last (ab :: ss) tau = last ss ab) by (clear; destruct ss as [|s ss]; [reflexivity|]; cbn [last]; revert s; induction ss as [|s2 ss IH]; intro s; [reflexivity|apply IH]).
    rewrite E1, E2. auto 6.
Qed.
Lemma moved_last bounded G n_in tau ls1 ls2 ss hs : moved bounded G n_in tau ls1 ls2 ss hs -> hs <> [] ->
  (fst (last ss tau) < G * last hs O)%nat /\ (snd (last ss tau) < G * last hs O)%nat /\ same_kind bounded (last hs O) (fst (last ss tau)) (snd (last ss tau)).
Proof.
  revert n_in tau ls2 ss hs; induction ls1 as [|l1 ls1 IH]; intros n_in tau [|l2 ls2] [|ab ss] [|h hs] H N; cbn [moved] in *; try contradiction. destruct H as (A & B & K & _ & _ & HV). destruct hs as [|h2 hs].
  - destruct ss; [|destruct ls1; cbn in HV; destruct ls2; contradiction]. cbn [last]. auto.
  - assert (E2 : last (ab :: ss) tau = last ss ab) by (clear; destruct ss as [|s ss]; [reflexivity|]; cbn [last]; revert s; induction ss as [|s2 ss IH]; intro s; [reflexivity|apply IH]). rewrite E2. change (last (h :: h2 :: hs) O) with (last (h2 :: hs) O). apply (IH _ ab ls2 ss (h2 :: hs) HV). discriminate.
Qed.
Lemma block_trans bounded h G ab y1 y2 s : (0 < h)%nat -> (fst ab < G * h)%nat -> (snd ab < G * h)%nat -> same_kind bounded h (fst ab) (snd ab) -> (s < G)%nat ->
  (forall o, (o < G * h)%nat -> nth o y1 0 = nth (trans ab o) y2 0) -> sumn h (fun q => nth (s * h + q) y1 0) = sumn h (fun q => nth (s * h + q) y2 0).
Proof.
  intros Hh A B [K _] Hs H. destruct ab as [a b]. cbn [fst snd] in *. pose proof (Nat.div_mod a h ltac:(lia)) as DA. pose proof (Nat.div_mod b h ltac:(lia)) as DB. pose proof (Nat.mod_upper_bound a h ltac:(lia)). pose proof (Nat.mod_upper_bound b h ltac:(lia)).
  transitivity (sumn h (fun q => nth (trans (a, b) (s * h + q)) y2 0)); [apply sumn_ext; intros q Hq; apply H; nia|]. unfold trans. cbn [fst snd]. destruct (Nat.eq_dec s (a / h)) as [E|N].
  - rewrite <- (sumn_transpose (a mod h) (b mod h) h (fun q => nth (s * h + q) y2 0)) by assumption. apply sumn_ext. intros q Hq. f_equal. unfold transpose.
    destruct (Nat.eqb_spec q (a mod h)) as [->|N1]; [destruct (Nat.eqb_spec (s * h + a mod h) a); nia|]. destruct (Nat.eqb_spec (s * h + q) a); [nia|]. destruct (Nat.eqb_spec q (b mod h)) as [->|N2]; [destruct (Nat.eqb_spec (s * h + b mod h) b); nia|]. destruct (Nat.eqb_spec (s * h + q) b); [nia|reflexivity].
  - apply sumn_ext. intros q Hq. f_equal. unfold transpose. destruct (Nat.eqb_spec (s * h + q) a); [exfalso; apply N; rewrite <- e; apply Nat.div_unique with q; lia|]. destruct (Nat.eqb_spec (s * h + q) b); [exfalso; apply N; rewrite K; match goal with E : (s * h + q)%nat = b |- _ => rewrite <- E end; apply Nat.div_unique with q; lia|reflexivity].
Qed.
Lemma sums_moved bounded z G n_in ls1 ls2 ss hs t tau first hp : (0 < G)%nat -> wired z G first n_in hp ls1 hs -> wired z G first n_in hp ls2 hs -> Forall (fun h => (h mod kinds bounded = 0)%nat) hs -> hs <> [] ->
  Forall (fun h => (0 < h)%nat) hs -> moved bounded G n_in tau ls1 ls2 ss hs -> n_in = 1%nat -> tau = (O, O) ->
  exists y1 y2, run_layers bounded ls1 [t] = Ok y1 /\ run_layers bounded ls2 [t] = Ok y2 /\ map rsum (blocks (last hs O) y1) = map rsum (blocks (last hs O) y2).
Proof.
  intros HG W1 W2 HM HN HP HV -> ->. destruct (run_moved bounded z G first 1 hp (O, O) ls1 ls2 ss hs [t] [t] W1 W2 HM HV) as (y1 & y2 & Y1 & Y2 & L1 & L2 & E); try reflexivity; try (cbn; lia).
  { intros i Hi. replace i with O by lia. reflexivity. }
  exists y1, y2. split; [exact Y1|]. split; [exact Y2|]. destruct (moved_last _ _ _ _ _ _ _ _ HV HN) as (A & B & K).
  assert (EL : last (map (Nat.mul G) hs) 1%nat = (G * last hs O)%nat).
  { clear - HN. induction hs as [|h hs IH]; [congruence|]. destruct hs as [|h2 hs]; [reflexivity|]. change (last (map (Nat.mul G) (h2 :: hs)) 1%nat = (G * last (h2 :: hs) O)%nat). now apply IH. }
  assert (Hh : (0 < last hs O)%nat) by (clear - HN HP; induction HP as [|h hs Hh _ IH]; [congruence|]; destruct hs as [|h2 hs]; [exact Hh|]; change (0 < last (h2 :: hs) O)%nat; now apply IH).
  rewrite EL in *. rewrite !(block_sums (last hs O) G) by assumption. apply map_ext_in. intros s Hs. apply in_seq in Hs. apply (block_trans bounded _ G (last ss (O, O))); try assumption; lia.
Qed.
