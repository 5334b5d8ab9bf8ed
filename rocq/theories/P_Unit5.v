(** Lemmas: a network of copies is a network with one unit of every kind. *)
From Verif Require Import Base BaseFacts RBase RFacts M_Data M_CV M_Logit M_Mono M_Lik M_Est M_Train M_Mix M_Quad M_Adam P_Logit P_Sym1 P_Mono1 P_Mono2 P_Mono3 P_Mono4 P_Mono5 P_Twin1 P_Twin2 P_Twin3 P_Unit1 P_Unit2 P_Unit3 P_Unit4 S_Logit S_Mono S_Twin S_Unit.
Import List.
Local Open Scope R_scope.

Lemma sumn_split a b f : sumn (a + b) f = sumn a f + sumn b (fun k => f (a + k)%nat).
Proof. induction b as [|b IH]; [rewrite Nat.add_0_r; cbn [sumn]; ring|]. rewrite Nat.add_succ_r. cbn [sumn]. rewrite IH. ring. Qed.
Lemma sumn_blocks G h f : sumn (G * h) f = sumn G (fun s => sumn h (fun q => f (s * h + q)%nat)).
Proof. induction G as [|G IH]; [reflexivity|]. replace (S G * h)%nat with (G * h + h)%nat by lia. rewrite sumn_split, IH. cbn [sumn]. ring. Qed.
Lemma sumn_cycle c P F : (0 < P)%nat -> sumn (c * P) (fun q => F (q mod P)%nat) = INR c * sumn P F.
Proof.
  intro HP. rewrite sumn_blocks. rewrite (sumn_ext _ _ (fun _ => sumn P F)); [apply sumn_const|]. intros s _. apply sumn_ext. intros q Hq. f_equal. rewrite Nat.add_comm, Nat.mod_add by lia. now apply Nat.mod_small.
Qed.
(** Where unit [o] of a wide layer goes in the narrow one. *)
Definition nar (P h o : nat) : nat := ((o / h) * P + o mod P)%nat.
Definition rep (P h o : nat) : nat := ((o / P) * h + o mod P)%nat.
Lemma nar_block P h s q : (0 < P)%nat -> (q < h)%nat -> (h mod P = 0)%nat -> nar P h (s * h + q) = (s * P + q mod P)%nat.
Proof.
  intros HP Hq HM. unfold nar. replace ((s * h + q) / h)%nat with s by (apply Nat.div_unique with q; lia). f_equal. pose proof (Nat.div_mod h P ltac:(lia)) as D. rewrite HM, Nat.add_0_r in D. rewrite D, (Nat.mul_comm P), Nat.mul_assoc, Nat.add_comm. apply Nat.mod_add. lia.
Qed.
Lemma sum_nar P h G F : (0 < P)%nat -> (0 < h)%nat -> (h mod P = 0)%nat -> sumn (G * h) (fun o => F (nar P h o)) = INR (h / P) * sumn (G * P) F.
Proof.
  intros HP Hh HM. rewrite !sumn_blocks, <- sumn_scal. apply sumn_ext. intros s _. rewrite (sumn_ext h _ (fun q => F (s * P + q mod P)%nat)) by (intros q Hq; now rewrite nar_block).
  pose proof (Nat.div_mod h P ltac:(lia)) as D. rewrite HM, Nat.add_0_r, Nat.mul_comm in D. rewrite D at 1. exact (sumn_cycle (h / P) P (fun r => F (s * P + r)%nat) HP).
Qed.
Lemma nar_lt P h G o : (0 < P)%nat -> (0 < h)%nat -> (o < G * h)%nat -> (nar P h o < G * P)%nat.
Proof. intros HP Hh Ho. unfold nar. assert (o / h < G)%nat by (apply Nat.div_lt_upper_bound; lia). pose proof (Nat.mod_upper_bound o P ltac:(lia)). nia. Qed.
Lemma nar_mod P h o : (0 < P)%nat -> (nar P h o mod P = o mod P)%nat.
Proof. intro HP. unfold nar. rewrite Nat.add_comm, Nat.mod_add by lia. apply Nat.mod_mod. lia. Qed.
Lemma nar_div P h o : (0 < P)%nat -> (nar P h o / P = o / h)%nat.
Proof. intro HP. unfold nar. pose proof (Nat.mod_upper_bound o P ltac:(lia)). symmetry. apply Nat.div_unique with (o mod P)%nat; lia. Qed.
Lemma rep_lt P h G o : (0 < P <= h)%nat -> (o < G * P)%nat -> (rep P h o < G * h)%nat.
Proof. intros HP Ho. unfold rep. assert (o / P < G)%nat by (apply Nat.div_lt_upper_bound; lia). pose proof (Nat.mod_upper_bound o P ltac:(lia)). nia. Qed.
Lemma rep_nar bounded h o : (kinds bounded <= h)%nat -> (h mod kinds bounded = 0)%nat -> same_kind bounded h o (rep (kinds bounded) h (nar (kinds bounded) h o)).
Proof.
  intros Hh HM. pose proof (kinds_pos bounded) as HP. set (P := kinds bounded) in *. unfold same_kind, rep. fold P. rewrite nar_div, nar_mod by exact HP. pose proof (Nat.mod_upper_bound o P ltac:(lia)) as B. split; [apply Nat.div_unique with (o mod P)%nat; lia|].
  pose proof (Nat.div_mod h P ltac:(lia)) as D. rewrite HM, Nat.add_0_r in D. rewrite D at 2. replace (o / h * (P * (h / P)) + o mod P)%nat with (o mod P + (o / h * (h / P)) * P)%nat by ring. rewrite Nat.mod_add by lia. now rewrite Nat.mod_mod by lia.
Qed.
Fixpoint narrowed (P G n1 : nat) (io : nat -> nat) (c : R) (ls1 ls2 : list spl) (hs : list nat) : Prop :=
  match ls1, ls2, hs with
  | [], [], [] => True
  | l1 :: ls1', l2 :: ls2', h :: hs' =>
      (forall o i, (o < G * h)%nat -> (i < n1)%nat -> layer_weight l2 (nar P h o) (io i) = c * layer_weight l1 o i) /\
      (forall o, (o < G * h)%nat -> layer_bias l2 (nar P h o) = layer_bias l1 o) /\
      narrowed P G (G * h) (nar P h) (INR (h / P)) ls1' ls2' hs'
  | _, _, _ => False end.
Lemma run_narrow bounded z z' G first n1 n2 hp hp2 io c ls1 ls2 hs x1 x2 : let P := kinds bounded in
  wired z G first n1 hp ls1 hs -> wired z' G first n2 hp2 ls2 (map (fun _ => P) hs) -> Forall (fun h => (h mod P = 0)%nat) hs -> narrowed P G n1 io c ls1 ls2 hs ->
  c <> 0 -> (forall i, (i < n1)%nat -> (io i < n2)%nat) -> (forall F, sumn n1 (fun i => F (io i)) = c * sumn n2 F) -> length x1 = n1 -> length x2 = n2 -> (forall i, (i < n1)%nat -> nth i x1 0 = nth (io i) x2 0) -> hs <> [] ->
  exists y1 y2, run_layers bounded ls1 x1 = Ok y1 /\ run_layers bounded ls2 x2 = Ok y2 /\ length y1 = (G * last hs O)%nat /\ length y2 = (G * P)%nat /\ forall o, (o < G * last hs O)%nat -> nth o y1 0 = nth (nar P (last hs O) o) y2 0.
Proof.
  intro P. pose proof (kinds_pos bounded) as HP. fold P in HP. revert first n1 n2 hp hp2 io c ls2 hs x1 x2; induction ls1 as [|l1 ls1 IH]; intros first n1 n2 hp hp2 io c [|l2 ls2] [|h hs] x1 x2 W1 W2 HM HN HC HI HS X1 X2 HX NE; cbn [narrowed wired map] in *; try contradiction.
  destruct W1 as (W & I1 & O1 & H0 & _ & _ & R1). destruct W2 as (W' & I2 & O2 & _ & _ & _ & R2). destruct HN as (HW & HB & HN). pose proof (Forall_inv HM) as M1. cbn beta in M1. apply Forall_inv_tail in HM.
  assert (MP : (P mod kinds bounded = 0)%nat) by (apply Nat.mod_same; fold P; lia).
  destruct (layer_step bounded l1 x1 G h W O1 M1 ltac:(lia)) as (y1 & Y1 & L1 & N1). destruct (layer_step bounded l2 x2 G P W' O2 MP ltac:(lia)) as (y2 & Y2 & L2 & N2).
  assert (HY : forall o, (o < G * h)%nat -> nth o y1 0 = nth (nar P h o) y2 0).
  { intros o Ho. rewrite N1, N2 by (try assumption; now apply nar_lt). assert (KM : (o mod kinds bounded = nar P h o mod kinds bounded)%nat) by (symmetry; now apply nar_mod). rewrite (act_kind bounded _ _ KM). f_equal. f_equal; [|symmetry; now apply HB].
    unfold predictor. rewrite I1, I2. apply (Rmult_eq_reg_l c); [|exact HC]. rewrite <- (HS (fun i => layer_weight l2 (nar P h o) i * nth i x2 0)), <- sumn_scal. apply sumn_ext. intros i Hi. rewrite HW, HX by assumption. ring. }
  cbn [run_layers]. rewrite Y1, Y2. cbn [bind]. destruct hs as [|h2 hs].
  - destruct ls1, ls2; cbn [narrowed] in HN; try contradiction. exists y1, y2. cbn [run_layers last]. auto 6.
  - assert (CP : INR (h / P) <> 0) by (apply not_0_INR; intro Q; apply Nat.div_small_iff in Q; [|lia]; rewrite Nat.mod_small in M1 by exact Q; lia).
    change (last (h :: h2 :: hs) O) with (last (h2 :: hs) O). apply (IH false (G * h)%nat (G * P)%nat h P (nar P h) (INR (h / P)) ls2 (h2 :: hs) y1 y2 R1 R2 HM HN CP); try assumption; try discriminate; [intros i Hi; now apply nar_lt|intro F; now apply sum_nar].
Qed.
(** ** A layer with given weights *)
Lemma table_exists {K} (keys : list K) (place : K -> nat) (f : K -> R) n : (forall a, In a keys -> (place a < n)%nat) -> (forall a b, In a keys -> In b keys -> place a = place b -> f a = f b) ->
  exists l, length l = n /\ forall a, In a keys -> nth (place a) l 0 = f a.
Proof.
  induction keys as [|a keys IH]; intros H1 H2; [exists (repeat 0 n); split; [apply repeat_length|intros a []]|]. destruct IH as (l & L & Q); [intros b Hb; apply H1; now right|intros b b' Hb Hb'; apply H2; now right|].
  exists (upd (place a) (f a) l). split; [now rewrite upd_length|]. intros b Hb. rewrite nth_upd by (rewrite L; apply H1; now left). destruct (Nat.eqb_spec (place a) (place b)) as [E|N]; [apply H2; [now left|exact Hb|exact E]|]. destruct Hb as [<-|Hb]; [contradiction|]. now apply Q.
Qed.
Lemma layer_exists l0 (w : nat -> nat -> R) (b : nat -> R) : spl_wf l0 -> (forall o i, (o < sl_out l0)%nat -> (i < sl_in l0)%nat -> nth i (nth o (sl_free l0) []) false = true -> 0 < w o i) ->
  exists l, same_layer l0 l /\ (forall o i, (o < sl_out l0)%nat -> (i < sl_in l0)%nat -> layer_weight l o i = if nth i (nth o (sl_free l0) []) false then w o i else 0) /\
    (forall o, (o < sl_out l0)%nat -> layer_bias l o = if nth o (sl_zero_out l0) false then 0 else b o).
Proof.
  intros (Hin & Hs & Hf & Hr & Hw & Hz & Hb) HW.
  assert (SI : exists inv : R -> R, forall v, 0 < v -> softplus (inv v) = v) by (exists (fun v => ln (exp v - 1)); intros v Hv; unfold softplus; rewrite exp_ln by (pose proof (exp_ineq1 v ltac:(lra)); lra); replace (1 + (exp v - 1)) with (exp v) by ring; apply ln_exp). destruct SI as (inv & INV).
  set (free := sl_free l0) in *. set (zo := sl_zero_out l0) in *.
  set (all := flat_map (fun o => map (fun i => (o, i)) (seq 0 (sl_in l0))) (seq 0 (sl_out l0))).
  assert (IA : forall o i, (o < sl_out l0)%nat -> (i < sl_in l0)%nat -> In (o, i) all) by (intros o i Ho Hi; unfold all; apply in_flat_map; exists o; split; [apply in_seq; lia|apply in_map, in_seq; lia]).
  set (keys := filter (fun oi => nth (snd oi) (nth (fst oi) free []) false) all).
  destruct (table_exists keys (fun oi => place free (fst oi) (snd oi)) (fun oi => inv (w (fst oi) (snd oi))) (ctrue (concat free))) as (raw & RL & RN).
  { intros a Ha. apply filter_In in Ha as [_ Ha]. now apply place_lt. }
  { intros a c Ha Hc E. apply filter_In in Ha as [_ Ha]. apply filter_In in Hc as [_ Hc]. destruct (place_inj _ _ _ _ _ Ha Hc E) as [-> ->]. reflexivity. }
  set (bkeys := filter (fun o => negb (nth o zo false)) (seq 0 (sl_out l0))).
  assert (NB : forall o, In o bkeys -> nth o (map negb zo) false = true /\ (o < sl_out l0)%nat).
  { intros o Ho. apply filter_In in Ho as [H1 H2]. apply in_seq in H1. split; [|lia]. apply nth_error_nth. rewrite nth_error_map, (nth_error_nth_lt _ o false) by lia. cbn [option_map]. now rewrite H2. }
  destruct (table_exists bkeys (fun o => ctrue (firstn o (map negb zo))) b (ctrue (map negb zo))) as (bias & BL & BN).
  { intros o Ho. destruct (NB o Ho) as [H1 H2]. apply ctrue_firstn_lt. rewrite (nth_error_nth_lt _ o false) by (rewrite map_length; lia). now rewrite H1. }
  { intros o o' Ho Ho' E. destruct (NB o Ho) as [T _]. destruct (NB o' Ho') as [T' _]. f_equal. destruct (Nat.lt_trichotomy o o') as [Q|[Q|Q]]; [|exact Q|]; [pose proof (firstn_strict _ _ _ T Q)|pose proof (firstn_strict _ _ _ T' Q)]; lia. }
  exists {| sl_in := sl_in l0; sl_out := sl_out l0; sl_softplus := sl_softplus l0; sl_zero_out := zo; sl_free := free; sl_raw := raw; sl_bias := bias |}. split; [unfold same_layer; cbn; repeat split; congruence|]. split.
  - intros o i Ho Hi. unfold layer_weight. cbn [sl_free sl_softplus sl_raw]. rewrite Hs, slope_place. destruct (nth i (nth o free []) false) eqn:F; [|reflexivity]. rewrite nth_map_lt by (rewrite RL; now apply place_lt). pose proof (RN (o, i)) as Q. cbn [fst snd] in Q. rewrite Q; [apply INV; now apply HW|]. apply filter_In. split; [now apply IA|exact F].
  - intros o Ho. unfold layer_bias. cbn [sl_zero_out sl_bias]. destruct (nth o zo false) eqn:F; [reflexivity|]. apply BN. apply filter_In. split; [apply in_seq; lia|now rewrite F].
Qed.
Lemma list_exists {A} (P : nat -> A -> Prop) (z : A) n : (forall k, (k < n)%nat -> exists x, P k x) -> exists l, length l = n /\ forall k, (k < n)%nat -> P k (nth k l z).
Proof.
  induction n as [|n IH]; intro H; [exists []; split; [reflexivity|intros; lia]|]. destruct IH as (l & L & Q); [intros k Hk; apply H; lia|]. destruct (H n ltac:(lia)) as (x & Hx). exists (l ++ [x]). split; [rewrite app_length; cbn; lia|]. intros k Hk.
  destruct (Nat.eq_dec k n) as [->|N]; [rewrite app_nth2, L, Nat.sub_diag by lia; exact Hx|rewrite app_nth1 by lia; apply Q; lia].
Qed.
