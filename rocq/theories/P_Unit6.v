(** Lemmas: constructed networks; the narrow network. *)
From Coq Require Import FunctionalExtensionality.
From Verif Require Import Base BaseFacts RBase RFacts M_Data M_CV M_Logit M_Mono M_Lik M_Est M_Train M_Mix M_Quad M_Adam P_Logit P_Sym1 P_Mono1 P_Mono2 P_Mono3 P_Mono4 P_Mono5 P_Twin1 P_Twin2 P_Twin3 P_Unit1 P_Unit2 P_Unit3 P_Unit4 P_Unit5 S_Logit S_Mono S_Twin S_Unit.
Import M_Mono List.
Local Open Scope R_scope.

(** ** The constructor *)
Definition units_for (bounded : bool) (hidden : option (list nat)) : list nat := match hidden with None => [kinds bounded] | Some h => h end.
Lemma init_parts cats lv rel hidden key sep neg bounded m : mnn_init cats lv rel hidden key sep neg bounded = Ok m ->
  exists r layers, relationships (length cats) lv rel = Ok r /\ Forall (fun h => (h mod kinds bounded = 0)%nat) (units_for bounded hidden) /\
    mapM (fun d => mnn_layers cats sep (column false d r) (units_for bounded hidden)) (seq 0 lv) = Ok layers /\
    m = {| n_cats := cats; n_lv := lv; n_rel := r; n_hidden := units_for bounded hidden; n_sep_items := sep; n_negative := neg; n_bounded := bounded; n_key := key;
           n_bias := repeat 0 (list_sum cats); n_layers := layers; n_neg := map (fun d => repeat (1 / 100) (ctrue (column false d r))) (seq 0 lv) |}.
Proof.
  intro H. unfold mnn_init in H. destruct (relationships (length cats) lv rel) as [r|] eqn:Er; [|discriminate]. cbn [bind] in H.
  assert (E : exists hs, hs = units_for bounded hidden /\ Forall (fun h => (h mod kinds bounded = 0)%nat) hs /\ match hidden with None => Ok [if bounded then 3 else 2]%nat | Some h => if forallb (fun x => (x mod (if bounded then 3 else 2) =? 0)%nat) h then Ok h else Err ValueError end = Ok hs).
  { destruct hidden as [h|]; cbn [units_for].
    - destruct (forallb (fun x => (x mod (if bounded then 3 else 2) =? 0)%nat) h) eqn:Ef; [|discriminate]. exists h. split; [reflexivity|]. split; [|reflexivity]. apply Forall_forall. intros x Hx. rewrite forallb_forall in Ef. apply Nat.eqb_eq, (Ef x Hx).
    - exists [kinds bounded]. split; [reflexivity|]. split; [destruct bounded; repeat constructor|destruct bounded; reflexivity]. }
  destruct E as (hs & E1 & E2 & E3). rewrite E3 in H. cbn [bind] in H. rewrite <- E1. destruct (mapM (fun d => mnn_layers cats sep (column false d r) hs) (seq 0 lv)) as [layers|] eqn:El; [|discriminate]. cbn [bind] in H. exists r, layers. split; [reflexivity|]. split; [exact E2|]. split; [exact El|].
  now injection H as <-.
Qed.
Lemma layers_total cats sep rel hs : hs <> [] -> exists ls, mnn_layers cats sep rel hs = Ok ls.
Proof.
  assert (S : forall x k, list_sum (repeat x k) = (k * x)%nat) by (intros x k; induction k as [|k IH]; [reflexivity|]; cbn [repeat]; unfold list_sum in *; cbn [fold_right]; rewrite IH; lia).
  assert (HT : forall hs prev zp, exists ls, mnn_hidden_layers cats sep rel prev zp hs = Ok ls).
  { clear hs. induction hs as [|h hs IH]; intros prev zp; [eexists; reflexivity|]. cbn [mnn_hidden_layers]. set (G := if sep then _ else _). unfold spl_init at 1. rewrite !S. rewrite (Nat.mul_comm prev), !Nat.eqb_refl. cbn [negb bind]. destruct (IH h (layer_zero_out cats sep rel h)) as (ls & ->). cbn [bind]. eexists; reflexivity. }
  intro N. destruct hs as [|h hs]; [congruence|]. cbn [mnn_layers]. unfold spl_init at 1. cbn [bind]. destruct (HT hs h (layer_zero_out cats sep rel h)) as (ls & ->). cbn [bind]. eexists; reflexivity.
Qed.
Lemma init_total cats lv rel h key sep neg bounded r : relationships (length cats) lv rel = Ok r -> h <> [] -> Forall (fun x => (x mod kinds bounded = 0)%nat) h -> exists m, mnn_init cats lv rel (Some h) key sep neg bounded = Ok m.
Proof.
  intros Hr Hn HF. unfold mnn_init. rewrite Hr. cbn [bind].
  assert (E : forallb (fun x => (x mod (if bounded then 3 else 2) =? 0)%nat) h = true) by (apply forallb_forall; intros x Hx; rewrite Forall_forall in HF; apply Nat.eqb_eq, (HF x Hx)). rewrite E. cbn [bind].
  assert (T : exists l, mapM (fun d => mnn_layers cats sep (column false d r) h) (seq 0 lv) = Ok l).
  { generalize (seq 0 lv). induction l as [|d l (l' & IH)]; [eexists; reflexivity|]. cbn [mapM]. destruct (layers_total cats sep (column false d r) h Hn) as (ls & ->). cbn [bind]. rewrite IH. cbn [bind]. eexists; reflexivity. }
  destruct T as (l & ->). cbn [bind]. eexists; reflexivity.
Qed.
Lemma mapM_nth {A B} (f : A -> result B) l l' k a b : mapM f l = Ok l' -> (k < length l)%nat -> f (nth k l a) = Ok (nth k l' b).
Proof. intros H Hk. apply mapM_Ok in H. exact (Forall2_nth (fun x y => f x = Ok y) l l' a b k H Hk). Qed.
Definition quiet (m : mnn) (d : nat) : nat -> bool := silent (n_cats m) (n_sep_items m) (column false d (n_rel m)).
Lemma init_network cats lv rel hidden key sep neg bounded m : mnn_init cats lv rel hidden key sep neg bounded = Ok m -> cats <> [] -> Forall (fun K => (1 <= K)%nat) cats ->
  (0 < lv)%nat -> (forall h, hidden = Some h -> Forall (fun x => (0 < x)%nat) h) -> network m (quiet m).
Proof.
  intros H Hc HK Hlv Hh. destruct (mnn_init_ok _ _ _ _ _ _ _ _ _ H Hc HK Hlv Hh) as (OK & _). destruct (init_parts _ _ _ _ _ _ _ _ _ H) as (r & layers & Hr & HM & HL & E). constructor; [exact OK|]. intros d Hd.
  assert (HP : Forall (fun h => (0 < h)%nat) (n_hidden m)) by apply OK. assert (LR : length (n_rel m) = length cats) by (destruct OK as (_ & _ & Q & _); rewrite Q, E; reflexivity).
  assert (Q : mnn_layers cats sep (column false d r) (units_for bounded hidden) = Ok (nth d layers [])).
  { pose proof (mapM_nth _ _ _ d O [] HL) as Q. rewrite E in Hd. cbn in Hd. rewrite seq_length, seq_nth in Q by exact Hd. exact (Q Hd). }
  apply layers_wired in Q.
  - rewrite E. cbn [n_layers n_hidden]. unfold quiet. cbn [n_cats n_sep_items n_rel]. rewrite <- ngroups_sep. cbn [n_cats n_sep_items]. exact Q.
  - rewrite column_length. rewrite E in LR. exact LR.
  - exact (list_max_pos cats Hc HK).
  - now apply ngroups_pos.
  - rewrite E in HP. exact HP.
Qed.
Lemma zero_layers cats sep rel hs ls : mnn_layers cats sep rel hs = Ok ls -> Forall (fun v => v = 0) (layers_parameters ls).
Proof.
  assert (Z1 : forall a b c e f g l, spl_init a b c e f g true = Ok l -> Forall (fun v => v = 0) (layer_parameters l)).
  { intros a b c e f g l H. unfold spl_init in H. match type of H with bind ?x _ = _ => destruct x as [fw|]; [|discriminate] end. cbn [bind] in H. injection H as <-. unfold layer_parameters. cbn [sl_raw sl_bias]. apply Forall_app. split; apply Forall_forall; intros v Hv; exact (repeat_spec _ _ _ Hv). }
  assert (Z2 : forall hs prev zp ls, mnn_hidden_layers cats sep rel prev zp hs = Ok ls -> Forall (fun v => v = 0) (layers_parameters ls)).
  { clear - Z1. induction hs as [|h hs IH]; intros prev zp ls H; [injection H as <-; constructor|]. cbn [mnn_hidden_layers] in H. match type of H with bind ?x _ = _ => destruct x as [l|] eqn:E; [|discriminate] end. cbn [bind] in H. match type of H with bind ?x _ = _ => destruct x as [ls'|] eqn:E2; [|discriminate] end. injection H as <-.
    unfold layers_parameters. cbn [map concat]. apply Forall_app. split; [exact (Z1 _ _ _ _ _ _ _ E)|exact (IH _ _ _ E2)]. }
  intro H. destruct hs as [|h hs]; [discriminate|]. cbn [mnn_layers] in H. match type of H with bind ?x _ = _ => destruct x as [l|] eqn:E; [|discriminate] end. cbn [bind] in H. match type of H with bind ?x _ = _ => destruct x as [ls'|] eqn:E2; [|discriminate] end. injection H as <-.
  unfold layers_parameters. cbn [map concat]. apply Forall_app. split; [exact (Z1 _ _ _ _ _ _ _ E)|exact (Z2 _ _ _ _ E2)].
Qed.
Lemma init_zero cats lv rel hidden key sep neg bounded m : mnn_init cats lv rel hidden key sep neg bounded = Ok m -> Forall (fun v => v = 0) (layers_parameters (concat (n_layers m))).
Proof.
  intro H. destruct (init_parts _ _ _ _ _ _ _ _ _ H) as (r & layers & _ & _ & HL & ->). cbn [n_layers]. apply mapM_Ok in HL. clear H. induction HL as [|d ls l lss H _ IH]; [constructor|]. cbn [concat]. rewrite layers_app. apply Forall_app. split; [exact (zero_layers _ _ _ _ _ H)|exact IH].
Qed.
Lemma init_alike cats lv rel hidden key sep neg bounded m z rest : mnn_init cats lv rel hidden key sep neg bounded = Ok m -> network m z -> alike (unit_pairs m) (net_parameters m ++ rest).
Proof.
  intros H NW u v (x & y & V & V' & _ & -> & ->). pose proof (init_zero _ _ _ _ _ _ _ _ _ H) as Z. pose proof (pos_lt m z NW x V) as P1. pose proof (pos_lt m z NW y V') as P2. unfold net_parameters. rewrite <- app_assoc.
  assert (Q : forall j, (j < length (layers_parameters (concat (n_layers m))))%nat -> nth j (layers_parameters (concat (n_layers m)) ++ ((n_bias m ++ concat (n_neg m)) ++ rest)) 0 = 0) by (intros j Hj; rewrite app_nth1 by exact Hj; rewrite Forall_forall in Z; apply Z, nth_In, Hj).
  now rewrite !Q.
Qed.

(** ** The narrow network *)
Definition io_at (io : nat -> nat) (P : nat) (hs : list nat) (k : nat) : nat -> nat := match k with O => io | S j => nar P (nth j hs O) end.
Definition c_at (c : R) (P : nat) (hs : list nat) (k : nat) : R := match k with O => c | S j => INR (nth j hs O / P) end.
Lemma narrowed_intro P G n1 io c ls1 ls2 hs : length ls1 = length hs -> length ls2 = length hs ->
  (forall k, (k < length hs)%nat -> let h := nth k hs O in
     (forall o i, (o < G * h)%nat -> (i < in_at n1 G hs k)%nat -> layer_weight (nth k ls2 no_layer) (nar P h o) (io_at io P hs k i) = c_at c P hs k * layer_weight (nth k ls1 no_layer) o i) /\
     (forall o, (o < G * h)%nat -> layer_bias (nth k ls2 no_layer) (nar P h o) = layer_bias (nth k ls1 no_layer) o)) -> narrowed P G n1 io c ls1 ls2 hs.
Proof.
  revert n1 io c ls1 ls2; induction hs as [|h hs IH]; intros n1 io c [|l1 ls1] [|l2 ls2] L1 L2 H; try discriminate; [exact I|]. cbn [narrowed]. destruct (H O ltac:(cbn; lia)) as [HW HB]. cbn [nth in_at io_at c_at] in HW, HB. split; [exact HW|]. split; [exact HB|]. apply IH; try (cbn in *; lia). intros k Hk.
  pose proof (H (S k) ltac:(cbn; lia)) as Q. cbn [nth] in Q. rewrite <- in_at_cons in Q. cbn zeta in Q |- *. replace (io_at (nar P h) P hs k) with (io_at io P (h :: hs) (S k)) by (now destruct k). replace (c_at (INR (h / P)) P hs k) with (c_at c P (h :: hs) (S k)) by (now destruct k). exact Q.
Qed.
Section Narrow.
Variables (m m0 : mnn) (z : nat -> nat -> bool).
Hypothesis net : network m z.
Hypothesis net0 : network m0 z.
Hypothesis lv0 : n_lv m0 = n_lv m.
Hypothesis sep0 : n_separations m0 = n_separations m.
Hypothesis hid0 : n_hidden m0 = map (fun _ => kinds (n_bounded m)) (n_hidden m).
Variable p : list R.
Hypothesis len : (length (net_parameters m) <= length p)%nat.
Hypothesis same : alike (unit_pairs m) p.
Let P := kinds (n_bounded m).
Let G := n_separations m.
Lemma kind_weight d k o o' i i' : (d < n_lv m)%nat -> (k < length (n_hidden m))%nat -> (o < G * h_at m k)%nat -> (o' < G * h_at m k)%nat -> (i < in_at 1 G (n_hidden m) k)%nat -> (i' < in_at 1 G (n_hidden m) k)%nat ->
  same_kind (n_bounded m) (h_at m k) o o' -> match k with O => i = i' | S j => same_kind (n_bounded m) (h_at m j) i i' end -> layer_weight (layer_of (with_net m p) d k) o i = layer_weight (layer_of (with_net m p) d k) o' i'.
Proof.
  intros Hd Hk Ho Ho' Hi Hi' K K'. rewrite !(weight_read m z net) by assumption. assert (EF : nth i (nth o (sl_free (layer_of m d k)) []) false = nth i' (nth o' (sl_free (layer_of m d k)) []) false) by (apply (free_kind m z net); try assumption; [exact (proj1 K)|destruct k; [exact I|exact (proj1 K')]]).
  rewrite <- EF. destruct (nth i (nth o (sl_free (layer_of m d k)) []) false) eqn:F; [|reflexivity]. f_equal. destruct (shape_at m z net d k Hd Hk) as (_ & I1 & O1 & _). fold (layer_of m d k) in I1, O1. fold (h_at m k) in O1.
  apply same. exists (KW d k o i), (KW d k o' i'). cbn [valid related]. rewrite I1, O1. fold G. symmetry in EF. auto 12.
Qed.
Lemma kind_bias d k o o' : (d < n_lv m)%nat -> (k < length (n_hidden m))%nat -> (o < G * h_at m k)%nat -> (o' < G * h_at m k)%nat -> same_kind (n_bounded m) (h_at m k) o o' -> layer_bias (layer_of (with_net m p) d k) o = layer_bias (layer_of (with_net m p) d k) o'.
Proof.
  intros Hd Hk Ho Ho' K. destruct (shape_at m z net d k Hd Hk) as (_ & I1 & O1 & _ & Z & _). fold (layer_of m d k) in I1, O1, Z. fold (h_at m k) in O1, Z. fold G in O1, Z. rewrite !(bias_read m z net) by (try assumption; rewrite O1; assumption).
  assert (EF : nth o (sl_zero_out (layer_of m d k)) false = nth o' (sl_zero_out (layer_of m d k)) false) by (rewrite !Z by assumption; f_equal; exact (proj1 K)). rewrite <- EF. destruct (nth o (sl_zero_out (layer_of m d k)) false) eqn:F; [reflexivity|]. apply same. exists (KB d k o), (KB d k o'). cbn [valid related]. rewrite O1. symmetry in EF. auto 12.
Qed.
Lemma kinds_le k : (k < length (n_hidden m))%nat -> (P <= h_at m k)%nat /\ (h_at m k mod P = 0)%nat.
Proof.
  intro Hk. pose proof (h_pos m z net k Hk) as H1. pose proof (hidden_mod m z net) as F. rewrite Forall_forall in F. pose proof (F _ (nth_In _ O Hk)) as H2. fold (h_at m k) in H2. fold P in H2. split; [|exact H2]. destruct (Nat.lt_ge_cases (h_at m k) P) as [L|L]; [|exact L]. rewrite Nat.mod_small in H2 by exact L. lia.
Qed.
Lemma hidden0 k : (k < length (n_hidden m))%nat -> h_at m0 k = P.
Proof. intro Hk. unfold h_at. rewrite hid0. rewrite (nth_indep _ O ((fun _ => kinds (n_bounded m)) O)) by now rewrite map_length. now rewrite (map_nth (fun _ => kinds (n_bounded m))). Qed.
Lemma narrow_stack d : (d < n_lv m)%nat -> exists ls, Forall2 same_layer (nth d (n_layers m0) []) ls /\ narrowed P G 1 (fun i => i) 1 (nth d (n_layers (with_net m p)) []) ls (n_hidden m).
Proof.
  intro Hd. pose proof (kinds_pos (n_bounded m)) as HP. fold P in HP. assert (K0 : length (n_hidden m0) = length (n_hidden m)) by (rewrite hid0; apply map_length). pose proof (network_with m z net p len) as NW.
  pose proof (list_exists (fun k l => same_layer (layer_of m0 d k) l /\
     (forall o i, (o < G * h_at m k)%nat -> (i < in_at 1 G (n_hidden m) k)%nat -> layer_weight l (nar P (h_at m k) o) (io_at (fun i => i) P (n_hidden m) k i) = c_at 1 P (n_hidden m) k * layer_weight (layer_of (with_net m p) d k) o i) /\
     (forall o, (o < G * h_at m k)%nat -> layer_bias l (nar P (h_at m k) o) = layer_bias (layer_of (with_net m p) d k) o)) no_layer (length (n_hidden m))) as E.
  destruct E as (ls & L & Q).
  { intros k Hk. destruct (kinds_le k Hk) as [KL KM]. pose proof (hidden0 k Hk) as H0k.
    destruct (shape_at m0 z net0 d k ltac:(rewrite lv0; exact Hd) ltac:(rewrite K0; exact Hk)) as (W0 & I0 & O0 & _ & Z0 & F0). fold (layer_of m0 d k) in W0, I0, O0, Z0, F0. fold (h_at m0 k) in O0, Z0, F0. rewrite sep0, H0k in *. fold G in I0, O0, Z0, F0.
    destruct (shape_at (with_net m p) z NW d k Hd Hk) as (W1 & I1 & O1 & _ & Z1 & F1). fold (layer_of (with_net m p) d k) in W1, I1, O1, Z1, F1. change (n_separations (with_net m p)) with G in *. cbn [with_net n_hidden] in I1, O1, Z1, F1. fold (h_at m k) in O1, Z1, F1.
    set (rin := fun i => match k with O => i | S j => rep P (h_at m j) i end). set (c := c_at 1 P (n_hidden m) k).
    assert (CP : 0 < c) by (unfold c; destruct k as [|j]; cbn [c_at]; [lra|]; fold (h_at m j); destruct (kinds_le j ltac:(lia)); apply lt_0_INR, Nat.div_str_pos; lia).
    assert (IN0 : forall i, (i < sl_in (layer_of m0 d k))%nat -> (rin i < in_at 1 G (n_hidden m) k)%nat).
    { intros i Hi. rewrite I0 in Hi. unfold rin. destruct k as [|j]; cbn [in_at] in *; [exact Hi|]. fold (h_at m j). fold (h_at m0 j) in Hi. rewrite hidden0 in Hi by lia. destruct (kinds_le j ltac:(lia)). apply rep_lt; [lia|exact Hi]. }
    assert (RO : forall o, (o < G * P)%nat -> (rep P (h_at m k) o < G * h_at m k)%nat) by (intros o Ho; apply rep_lt; [lia|exact Ho]).
    assert (RD : forall a h, (P <= h)%nat -> (rep P h a / h = a / P)%nat) by (intros a h Hh; unfold rep; pose proof (Nat.mod_upper_bound a P ltac:(lia)); symmetry; apply Nat.div_unique with (a mod P)%nat; lia).
    assert (FF : forall o i, (o < G * P)%nat -> (i < sl_in (layer_of m0 d k))%nat -> nth i (nth o (sl_free (layer_of m0 d k)) []) false = nth (rin i) (nth (rep P (h_at m k) o) (sl_free (layer_of (with_net m p) d k)) []) false).
    { intros o i Ho Hi. rewrite F0 by (try exact Ho; rewrite I0 in Hi; exact Hi). rewrite F1 by (try (now apply RO); now apply IN0). rewrite RD by exact KL. unfold rin. destruct k as [|j]; cbn [first_at hp_at]; [reflexivity|]. fold (h_at m j). fold (h_at m0 j). rewrite hidden0 by lia. destruct (kinds_le j ltac:(lia)). rewrite RD by assumption. reflexivity. }
    destruct (layer_exists (layer_of m0 d k) (fun o i => c * layer_weight (layer_of (with_net m p) d k) (rep P (h_at m k) o) (rin i)) (fun o => layer_bias (layer_of (with_net m p) d k) (rep P (h_at m k) o)) W0) as (l & SL & LW & LB).
    { intros o i Ho Hi F. apply Rmult_lt_0_compat; [exact CP|]. apply layer_weight_pos; [exact W1|]. rewrite <- FF; [exact F|rewrite O0 in Ho; exact Ho|exact Hi]. }
    exists l. split; [exact SL|]. split.
    - intros o i Ho Hi. assert (NO : (nar P (h_at m k) o < G * P)%nat) by (apply nar_lt; try lia; exact Ho).
      assert (NI : (io_at (fun i => i) P (n_hidden m) k i < sl_in (layer_of m0 d k))%nat) by (rewrite I0; destruct k as [|j]; cbn [io_at in_at] in *; [exact Hi|]; fold (h_at m j) in Hi |- *; fold (h_at m0 j); rewrite hidden0 by lia; destruct (kinds_le j ltac:(lia)); apply nar_lt; try lia; exact Hi).
      rewrite LW by (rewrite ?O0; assumption). rewrite FF by assumption.
      assert (EW : layer_weight (layer_of (with_net m p) d k) (rep P (h_at m k) (nar P (h_at m k) o)) (rin (io_at (fun i => i) P (n_hidden m) k i)) = layer_weight (layer_of (with_net m p) d k) o i).
      { symmetry. apply kind_weight; try assumption; [now apply RO|now apply IN0|now apply rep_nar|]. unfold rin. destruct k as [|j]; cbn [io_at]; [reflexivity|]. destruct (kinds_le j ltac:(lia)). now apply rep_nar. }
      rewrite EW. fold c. destruct (nth (rin (io_at (fun i0 => i0) P (n_hidden m) k i)) (nth (rep P (h_at m k) (nar P (h_at m k) o)) (sl_free (layer_of (with_net m p) d k)) []) false) eqn:F; [reflexivity|].
      rewrite <- EW. unfold layer_weight. rewrite slope_place, F. ring.
    - intros o Ho. assert (NO : (nar P (h_at m k) o < G * P)%nat) by (apply nar_lt; try lia; exact Ho). rewrite LB by (rewrite O0; exact NO). rewrite Z0 by exact NO.
      assert (EB : layer_bias (layer_of (with_net m p) d k) (rep P (h_at m k) (nar P (h_at m k) o)) = layer_bias (layer_of (with_net m p) d k) o) by (symmetry; apply kind_bias; try assumption; [now apply RO|now apply rep_nar]).
      rewrite EB. rewrite nar_div by exact HP. rewrite <- Z1 by exact Ho. unfold layer_bias. destruct (nth o (sl_zero_out (layer_of (with_net m p) d k)) false); reflexivity. }
  exists ls. assert (L0 : length (nth d (n_layers m0) []) = length (n_hidden m)) by (rewrite (stack_length m0 z net0 d) by (rewrite lv0; exact Hd); exact K0). split.
  - assert (FA : forall (a b : list spl), length a = length b -> (forall k, (k < length a)%nat -> same_layer (nth k a no_layer) (nth k b no_layer)) -> Forall2 same_layer a b).
    { clear. induction a as [|x a IH]; intros [|y b] L H; try discriminate; constructor; [exact (H O ltac:(cbn; lia))|]. apply IH; [cbn in L; lia|]. intros k Hk. exact (H (S k) ltac:(cbn; lia)). }
    apply FA; [lia|]. intros k Hk. exact (proj1 (Q k ltac:(lia))).
  - apply narrowed_intro; [exact (wired_length _ _ _ _ _ _ _ (nw_wired _ _ NW d Hd))|exact L|]. intros k Hk. exact (proj2 (Q k Hk)).
Qed.
Lemma narrow_sums d ls t : (d < n_lv m)%nat -> Forall2 same_layer (nth d (n_layers m0) []) ls -> narrowed P G 1 (fun i => i) 1 (nth d (n_layers (with_net m p)) []) ls (n_hidden m) ->
  exists y1 y2, run_layers (n_bounded m) (nth d (n_layers (with_net m p)) []) [t] = Ok y1 /\ run_layers (n_bounded m) ls [t] = Ok y2 /\
    map rsum (blocks (last (n_hidden m) O) y1) = map (Rmult (INR (last (n_hidden m) O / P))) (map rsum (blocks P y2)).
Proof.
  intros Hd HS HN. pose proof (kinds_pos (n_bounded m)) as HP. fold P in HP. pose proof (network_with m z net p len) as NW. pose proof (nw_wired _ _ NW d Hd) as W1. pose proof (same_wired _ _ _ _ _ _ _ _ HS (nw_wired _ _ net0 d ltac:(rewrite lv0; exact Hd))) as W2. rewrite sep0, hid0 in W2. fold G in W2.
  change (n_separations (with_net m p)) with G in W1. change (n_hidden (with_net m p)) with (n_hidden m) in W1.
  destruct (run_narrow (n_bounded m) (z d) (z d) G true 1 1 1 1 (fun i => i) 1 _ ls (n_hidden m) [t] [t] W1 W2 (hidden_mod m z net) HN) as (y1 & y2 & Y1 & Y2 & L1 & L2 & E); try reflexivity; try lra; try (intros; assumption).
  { intro F. now rewrite Rmult_1_l. } { exact (hidden_some m z net). }
  exists y1, y2. split; [exact Y1|]. split; [exact Y2|]. fold P in L2, E. set (h := last (n_hidden m) O) in *.
  assert (HH : In h (n_hidden m)) by (unfold h; destruct (exists_last (hidden_some m z net)) as (l0 & a & ->); rewrite last_last; apply in_or_app; right; now left).
  assert (Hh : (0 < h)%nat) by (pose proof (hidden_pos m z net) as F; rewrite Forall_forall in F; now apply F). assert (HM : (h mod P = 0)%nat) by (pose proof (hidden_mod m z net) as F; rewrite Forall_forall in F; now apply F).
  rewrite (block_sums h G), (block_sums P G) by assumption. rewrite map_map. apply map_ext_in. intros s Hs. apply in_seq in Hs. rewrite (sumn_ext h _ (fun q => nth (s * P + q mod P) y2 0)) by (intros q Hq; rewrite E by nia; now rewrite nar_block).
  pose proof (Nat.div_mod h P ltac:(lia)) as D. rewrite HM, Nat.add_0_r, Nat.mul_comm in D. rewrite D at 1. exact (sumn_cycle (h / P) P (fun r => nth (s * P + r) y2 0) HP).
Qed.
End Narrow.
(** Negation weights. *)
Lemma scatter_map (f : R -> R) mask v l : mask_scatter mask (map f v) (map f l) = map f (mask_scatter mask v l).
Proof. revert v l; induction mask as [|b mask IH]; intros v [|x l]; try reflexivity. cbn [map mask_scatter]. destruct b; [destruct v as [|a v]; cbn [map]; [rewrite <- (IH []); reflexivity|now rewrite <- IH]|cbn [map]; now rewrite <- IH]. Qed.
Lemma interleave_map (f : R -> R) k l : repeat_interleave k (map f l) = map f (repeat_interleave k l).
Proof. unfold repeat_interleave. induction l as [|x l IH]; [reflexivity|]. cbn [map flat_map]. rewrite map_app, IH. f_equal. symmetry. apply map_repeat. Qed.
Lemma negation_scaled_weight a rel ipi wp : negation_weight rel ipi (map (Rmult a) wp) = map (Rmult a) (negation_weight rel ipi wp).
Proof. unfold negation_weight. rewrite interleave_map, <- scatter_map. f_equal. rewrite map_repeat. now rewrite Rmult_0_r. Qed.
Lemma zip_mult_l a x y : zip_with Rmult (map (Rmult a) x) y = map (Rmult a) (zip_with Rmult x y).
Proof. revert y; induction x as [|u x IH]; intros [|v y]; try reflexivity. cbn [map zip_with]. rewrite IH. f_equal. ring. Qed.
Lemma zip_mult_r a x y : zip_with Rmult x (map (Rmult a) y) = map (Rmult a) (zip_with Rmult x y).
Proof. revert y; induction x as [|u x IH]; intros [|v y]; try reflexivity. cbn [map zip_with]. rewrite IH. f_equal. ring. Qed.
Lemma mask_mult a mask x : set_mask mask 0 (map (Rmult a) x) = map (Rmult a) (set_mask mask 0 x).
Proof. unfold set_mask. revert x; induction mask as [|b mask IH]; intros [|v x]; try reflexivity. cbn [map zip_with]. rewrite IH. f_equal. destruct b; [ring|reflexivity]. Qed.
Lemma negation_input a rel ipi zo wp x : negation_forward rel ipi zo wp (map (Rmult a) x) = map (Rmult a) (negation_forward rel ipi zo wp x).
Proof. unfold negation_forward. now rewrite mask_mult, zip_mult_l. Qed.
Lemma negation_weights a rel ipi zo wp x : negation_forward rel ipi zo (map (Rmult a) wp) x = map (Rmult a) (negation_forward rel ipi zo wp x).
Proof. unfold negation_forward. now rewrite negation_scaled_weight, zip_mult_r. Qed.
Definition one_each (bounded : bool) (hidden : option (list nat)) : option (list nat) := Some (map (fun _ => kinds bounded) (units_for bounded hidden)).
Lemma narrow_network cats lv rel hidden key sep neg bounded m p e : mnn_init cats lv rel hidden key sep neg bounded = Ok m -> cats <> [] -> Forall (fun K => (1 <= K)%nat) cats ->
  (0 < lv)%nat -> (forall h, hidden = Some h -> Forall (fun x => (0 < x)%nat) h) -> (length (net_parameters m) <= length p)%nat -> alike (unit_pairs m) p -> e <> 0 ->
  let a := INR (last (units_for bounded hidden) O / kinds bounded) in
  exists m0 m2, mnn_init cats lv rel (one_each bounded hidden) key sep neg bounded = Ok m0 /\ same_mnn m0 m2 /\ n_bias m2 = n_bias (with_net m p) /\ n_neg m2 = map (map (Rmult e)) (n_neg (with_net m p)) /\
    forall d t, (d < lv)%nat -> mnn_lv_output (with_net m p) d t = rmap (map (Rmult (if neg then a / e else a))) (mnn_lv_output m2 d t).
Proof.
  intros H Hc HK Hlv Hh HL HA He a. pose proof (init_network _ _ _ _ _ _ _ _ _ H Hc HK Hlv Hh) as NW. destruct (init_parts _ _ _ _ _ _ _ _ _ H) as (r & layers & Hr & HM & HLa & E).
  assert (HS : units_for bounded hidden <> []) by (pose proof (hidden_some m _ NW) as Q; rewrite E in Q; exact Q). pose proof (kinds_pos bounded) as KP.
  destruct (init_total cats lv rel (map (fun _ => kinds bounded) (units_for bounded hidden)) key sep neg bounded r Hr) as (m0 & H0).
  { intro F. apply map_eq_nil in F. contradiction. } { apply Forall_forall. intros x Hx. apply in_map_iff in Hx as (y & <- & _). apply Nat.mod_same. lia. }
  fold (one_each bounded hidden) in H0. pose proof (init_network _ _ _ _ _ _ _ _ _ H0 Hc HK Hlv) as NW0. destruct (init_parts _ _ _ _ _ _ _ _ _ H0) as (r0 & layers0 & Hr0 & HM0 & HLa0 & E0). assert (ER : r0 = r) by congruence. subst r0.
  assert (NW0' : network m0 (quiet m0)). { apply NW0. intros h Eh. injection Eh as <-. apply Forall_forall. intros x Hx. apply in_map_iff in Hx as (y & <- & _). exact KP. } clear NW0.
  assert (QE : quiet m0 = quiet m) by (rewrite E, E0; reflexivity). rewrite QE in NW0'.
  assert (F1 : n_lv m0 = n_lv m) by (rewrite E, E0; reflexivity). assert (F2 : n_separations m0 = n_separations m) by (rewrite E, E0; reflexivity). assert (F3 : n_hidden m0 = map (fun _ => kinds (n_bounded m)) (n_hidden m)) by (rewrite E, E0; reflexivity).
  destruct (list_exists (fun d ls => Forall2 same_layer (nth d (n_layers m0) []) ls /\ narrowed (kinds (n_bounded m)) (n_separations m) 1 (fun i => i) 1 (nth d (n_layers (with_net m p)) []) ls (n_hidden m)) [] lv) as (st & LS & Q).
  { intros d Hd. apply (narrow_stack m m0 (quiet m) NW NW0' F1 F2 F3 p HL HA). rewrite E. exact Hd. }
  set (m2 := {| n_cats := cats; n_lv := lv; n_rel := r; n_hidden := map (fun _ => kinds bounded) (units_for bounded hidden); n_sep_items := sep; n_negative := neg; n_bounded := bounded; n_key := key; n_bias := n_bias (with_net m p); n_layers := st; n_neg := map (map (Rmult e)) (n_neg (with_net m p)) |}).
  exists m0, m2. split; [exact H0|]. pose proof (with_net_same m p HL) as SM. split; [|split; [reflexivity|split; [reflexivity|]]].
  - destruct SM as (_ & _ & _ & _ & _ & _ & _ & _ & SB & _ & SN). unfold same_mnn. cbn [m2 n_cats n_lv n_rel n_hidden n_sep_items n_negative n_bounded n_key n_bias n_layers n_neg]. rewrite E in SB, SN. rewrite E0. cbn [n_cats n_lv n_rel n_hidden n_sep_items n_negative n_bounded n_key n_bias n_layers n_neg] in *. rewrite E. do 8 (split; [reflexivity|]). split; [exact SB|]. split.
    + assert (LL : length layers0 = lv) by (apply mapM_Ok, Forall2_len in HLa0; rewrite seq_length in HLa0; lia). rewrite E0 in Q. cbn [n_layers] in Q.
      assert (FA : forall A (Q : list A -> list A -> Prop) (a b : list (list A)), length a = length b -> (forall k, (k < length a)%nat -> Q (nth k a []) (nth k b [])) -> Forall2 Q a b).
      { clear. intros A Q a. induction a as [|x a IH]; intros [|y b] L H; try discriminate; constructor; [exact (H O ltac:(cbn; lia))|]. apply IH; [cbn in L; lia|]. intros k Hk. exact (H (S k) ltac:(cbn; lia)). }
      apply FA; [lia|]. intros k Hk. apply Q. lia.
    + clear - SN. cbn [with_net n_neg] in *. set (b := with_rows _ _) in *. clearbody b. induction SN as [|x y l l' H _ IH]; [constructor|]. cbn [map]. constructor; [now rewrite map_length|exact IH].
  - intros d t Hd. destruct (Q d Hd) as [Q1 Q2]. assert (Hd' : (d < n_lv m)%nat) by (rewrite E; exact Hd).
    destruct (narrow_sums m m0 (quiet m) NW NW0' F1 F2 F3 p HL d (nth d st []) t Hd' Q1 Q2) as (y1 & y2 & Y1 & Y2 & S).
    unfold mnn_lv_output. change (n_bounded (with_net m p)) with (n_bounded m). rewrite Y1. cbn [m2 n_bounded n_layers n_hidden n_negative n_rel n_sep_items n_neg bind rmap]. assert (EB : n_bounded m = bounded) by (rewrite E; reflexivity). rewrite EB in Y2, S. rewrite Y2. cbn [bind].
    change (n_hidden (with_net m p)) with (n_hidden m). rewrite S. assert (EH : n_hidden m = units_for bounded hidden) by (rewrite E; reflexivity). rewrite EH. fold a. replace (last (map (fun _ : nat => kinds bounded) (units_for bounded hidden)) O) with (kinds bounded) by (destruct (exists_last HS) as (l0 & b & ->); rewrite map_app; cbn [map]; now rewrite last_last).
    change (n_negative (with_net m p)) with (n_negative m). assert (EN : n_negative m = neg) by (rewrite E; reflexivity). rewrite EN. change (n_rel (with_net m p)) with (n_rel m). change (n_sep_items (with_net m p)) with (n_sep_items m). change (n_cats (with_net m p)) with (n_cats m). change (n_max (with_net m p)) with (n_max m). change (n_items (with_net m p)) with (n_items m).
    replace (n_rel m) with r by (rewrite E; reflexivity). replace (n_sep_items m) with sep by (rewrite E; reflexivity). replace (n_max m) with (n_max m2) by (unfold n_max, m2; rewrite E; reflexivity). replace (n_items m) with (n_items m2) by (unfold n_items, m2; rewrite E; reflexivity). replace (n_cats m) with cats by (rewrite E; reflexivity).
    cbn [m2 n_cats]. apply (f_equal (@Ok (list R))). destruct neg; [|reflexivity]. rewrite negation_input. set (w := nth d (n_neg (with_net m p)) []). replace (nth d (map (map (Rmult e)) (n_neg (with_net m p))) []) with (map (Rmult e) w) by (unfold w; change (@nil R) with (map (Rmult e) []) at 2; now rewrite map_nth). rewrite negation_weights; rewrite map_map. apply map_ext. intro v. field. exact He.
Qed.
Lemma same_forward_of m1 m2 : n_cats m1 = n_cats m2 -> n_lv m1 = n_lv m2 -> n_sep_items m1 = n_sep_items m2 -> n_key m1 = n_key m2 -> n_bias m1 = n_bias m2 ->
  (forall d t, (d < n_lv m1)%nat -> mnn_lv_output m1 d t = mnn_lv_output m2 d t) -> mnn_forward1 m1 = mnn_forward1 m2.
Proof.
  intros E1 E2 E3 E4 E5 H. apply functional_extensionality. intro t. unfold mnn_forward1, n_separations, n_items, n_max. rewrite <- E1, <- E2, <- E3, <- E4, <- E5. f_equal.
  assert (Q : forall l, (forall d, In d l -> (d < n_lv m1)%nat) -> mapM (fun d => mnn_lv_output m1 d (nth d t 0)) l = mapM (fun d => mnn_lv_output m2 d (nth d t 0)) l).
  { induction l as [|d l IH]; intro Hl; [reflexivity|]. cbn [mapM]. rewrite H by (apply Hl; now left). rewrite IH by (intros; apply Hl; now right). reflexivity. }
  apply Q. intros d Hd. apply in_seq in Hd. lia.
Qed.
