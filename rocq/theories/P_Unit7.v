(** Lemmas: the losses of a monotone network have gradients. *)
From Verif Require Import Base BaseFacts RBase RFacts M_Data M_CV M_Logit M_Mono M_Lik M_Est M_Train M_Mix M_Quad M_Adam P_Logit P_Sym1 P_Mono1 P_Mono2 P_Mono3 P_Mono4 P_Mono5 P_Twin1 P_Twin2 P_Twin3 P_Unit1 P_Unit2 P_Unit3 P_Unit4 P_Unit5 P_Unit6 S_Logit S_Mono S_Twin S_Unit.
Import M_Mono List.
Local Open Scope R_scope.

Definition smp (f : R -> R) : Prop := forall t, exists l, derivable_pt_lim f t l.
Lemma m_ext f g : (forall t, f t = g t) -> smp g -> smp f.
Proof. intros H S t. destruct (S t) as [l Hl]. exists l. apply (derivable_pt_lim_ext g); [intro u; now symmetry|exact Hl]. Qed.
Lemma m_const c : smp (fun _ => c).
Proof. intro t. exists 0. apply derivable_pt_lim_const. Qed.
Lemma m_id : smp (fun t => t).
Proof. intro t. exists 1. apply derivable_pt_lim_id. Qed.
Lemma m_plus f g : smp f -> smp g -> smp (fun t => f t + g t).
Proof. intros F G t. destruct (F t) as [a A], (G t) as [b B]. exists (a + b). exact (derivable_pt_lim_plus f g t a b A B). Qed.
Lemma m_mult f g : smp f -> smp g -> smp (fun t => f t * g t).
Proof. intros F G t. destruct (F t) as [a A], (G t) as [b B]. exists (a * g t + f t * b). exact (derivable_pt_lim_mult f g t a b A B). Qed.
Lemma m_opp f : smp f -> smp (fun t => - f t).
Proof. intros F t. destruct (F t) as [a A]. exists (- a). exact (derivable_pt_lim_opp f t a A). Qed.
Lemma m_minus f g : smp f -> smp g -> smp (fun t => f t - g t).
Proof. intros F G. apply (m_plus f (fun t => - g t) F). now apply m_opp. Qed.
Lemma m_comp h f : smp h -> smp f -> smp (fun t => h (f t)).
Proof. intros H F t. destruct (F t) as [a A], (H (f t)) as [b B]. exists (b * a). exact (derivable_pt_lim_comp f h t a b A B). Qed.
Lemma m_exp f : smp f -> smp (fun t => exp (f t)).
Proof. apply (m_comp exp). intro t. exists (exp t). apply derivable_pt_lim_exp. Qed.
Lemma m_ln f : smp f -> (forall t, 0 < f t) -> smp (fun t => ln (f t)).
Proof. intros F P t. destruct (F t) as [a A]. exists (/ f t * a). exact (derivable_pt_lim_comp f ln t a (/ f t) A (derivable_pt_lim_ln (f t) (P t))). Qed.
Lemma m_if (b : bool) f g : smp f -> smp g -> smp (fun t => if b then f t else g t).
Proof. now destruct b. Qed.
Lemma m_sumn n (f : nat -> R -> R) : (forall k, (k < n)%nat -> smp (f k)) -> smp (fun t => sumn n (fun k => f k t)).
Proof. intro H. induction n as [|n IH]; [exact (m_const 0)|]. cbn [sumn]. apply m_plus; [apply IH; intros; apply H; lia|apply H; lia]. Qed.
Lemma m_softplus f : smp f -> smp (fun t => softplus (f t)).
Proof. intro F. unfold softplus. apply m_ln; [apply m_plus; [apply m_const|now apply m_exp]|]. intro t. pose proof (exp_pos (f t)). lra. Qed.
Lemma expm1_derivative x : derivable_pt_lim (fun x => exp x - 1) x (exp x).
Proof. rewrite <- (Rminus_0_r (exp x)). apply (derivable_pt_lim_minus exp (fun _ => 1)); [apply derivable_pt_lim_exp|apply derivable_pt_lim_const]. Qed.
Lemma elu_smooth : smp elu.
Proof.
  intro x. destruct (Rtotal_order x 0) as [L|[->|L]].
  - exists (exp x). assert (D : 0 < - x) by lra. apply (derivable_local elu (fun x => exp x - 1) x (exp x) (- x) D).
    + intros h Hh. apply Rabs_lt_inv in Hh. unfold elu. destruct (Rle_dec (x + h) 0); [reflexivity|lra].
    + apply expm1_derivative.
  - exists 1. apply (derivable_glue elu (fun x => exp x - 1) (fun x => x) 0 1 1 ltac:(lra)).
    + intros h Hh. unfold elu. destruct (Rle_dec (0 + h) 0); [reflexivity|lra].
    + intros h Hh. unfold elu. destruct (Rle_dec (0 + h) 0); [|reflexivity]. replace (0 + h) with 0 by lra. rewrite exp_0. ring.
    + pose proof (expm1_derivative 0) as Q; rewrite exp_0 in Q; exact Q.
    + apply derivable_pt_lim_id.
  - exists 1. apply (derivable_local elu (fun x => x) x 1 x L).
    + intros h Hh. apply Rabs_lt_inv in Hh. unfold elu. destruct (Rle_dec (x + h) 0); [lra|reflexivity].
    + apply derivable_pt_lim_id.
Qed.
Lemma act_smooth bounded o : smp (act bounded o).
Proof.
  assert (N : smp (fun v => - elu (- v))) by (apply m_opp; apply (m_comp elu (fun v => - v) elu_smooth); apply m_opp, m_id).
  assert (B : smp (belu 1)) by (intro x; exists (belu_backward 1 x); apply belu_derivative; now right).
  unfold act. destruct bounded; [destruct (o mod 3)%nat as [|[|?]]; [exact elu_smooth|exact N|exact B]|destruct (o mod 2)%nat; [exact elu_smooth|exact N]].
Qed.

(** ** Lists that move *)
Definition mlist (f : R -> list R) : Prop := exists gs, Forall smp gs /\ forall t, f t = map (fun g => g t) gs.
Lemma ml_const l : mlist (fun _ => l).
Proof. exists (map (fun v => fun _ => v) l). split; [apply Forall_forall; intros g Hg; apply in_map_iff in Hg as (v & <- & _); apply m_const|]. intro t. rewrite map_map. now rewrite map_id. Qed.
Lemma ml_nth f j : mlist f -> smp (fun t => nth j (f t) 0).
Proof.
  intros (gs & G & E). destruct (lt_dec j (length gs)) as [L|L].
  - apply (m_ext _ (nth j gs (fun _ => 0))); [|rewrite Forall_forall in G; apply G, nth_In, L]. intro t. rewrite E. exact (map_nth (fun g => g t) gs (fun _ => 0) j).
  - apply (m_ext _ (fun _ => 0)); [|apply m_const]. intro t. rewrite E. apply nth_overflow. rewrite map_length. lia.
Qed.
Lemma ml_intro f n : (forall t, length (f t) = n) -> (forall j, (j < n)%nat -> smp (fun t => nth j (f t) 0)) -> mlist f.
Proof.
  intros L H. exists (map (fun j t => nth j (f t) 0) (seq 0 n)). split; [apply Forall_forall; intros g Hg; apply in_map_iff in Hg as (j & <- & Hj); apply H; apply in_seq in Hj; lia|]. intro t. rewrite map_map. apply nth_error_ext. intro j.
  destruct (Nat.lt_ge_cases j n) as [Hj|Hj]; [rewrite nth_error_map_seq by exact Hj; apply nth_error_nth_lt; now rewrite L|]. rewrite (proj2 (nth_error_None _ j)) by (rewrite L; lia). symmetry. apply nth_error_None. rewrite map_length, seq_length. lia.
Qed.
Lemma ml_ext f g : (forall t, f t = g t) -> mlist g -> mlist f.
Proof. intros H (gs & G & E). exists gs. split; [exact G|]. intro t. now rewrite H, E. Qed.
Lemma ml_length f : mlist f -> exists n, forall t, length (f t) = n.
Proof. intros (gs & _ & E). exists (length gs). intro t. now rewrite E, map_length. Qed.
(** A function of lists that does not look at the numbers. *)
Lemma ml_struct f (F : forall A, list A -> list A) : (forall A B (h : A -> B) l, F B (map h l) = map h (F A l)) -> (forall A l x, In x (F A l) -> In x l) -> mlist f -> mlist (fun t => F R (f t)).
Proof. intros N I (gs & G & E). exists (F _ gs). split; [apply Forall_forall; intros g Hg; rewrite Forall_forall in G; apply G, (I _ _ _ Hg)|]. intro t. now rewrite E, N. Qed.
Lemma ml_skip f k : mlist f -> mlist (fun t => skipn k (f t)).
Proof. apply (ml_struct f (fun A => skipn k)); [intros; apply skipn_map|]. intros A l x H. rewrite <- (firstn_skipn k l). apply in_or_app. now right. Qed.
Lemma ml_first f k : mlist f -> mlist (fun t => firstn k (f t)).
Proof. apply (ml_struct f (fun A => firstn k)); [intros; apply firstn_map|]. intros A l x H. rewrite <- (firstn_skipn k l). apply in_or_app. now left. Qed.
Lemma ml_interleave f k : mlist f -> mlist (fun t => repeat_interleave k (f t)).
Proof.
  apply (ml_struct f (fun A => repeat_interleave k)).
  - intros A B h l. unfold repeat_interleave. induction l as [|x l IH]; [reflexivity|]. cbn [map flat_map]. rewrite map_app, IH. f_equal. symmetry. apply map_repeat.
  - intros A l x H. unfold repeat_interleave in H. apply in_flat_map in H as (y & Hy & H). apply repeat_spec in H. now subst.
Qed.
Lemma ml_zip (h : R -> R -> R) f g : (forall a b, smp a -> smp b -> smp (fun t => h (a t) (b t))) -> mlist f -> mlist g -> mlist (fun t => zip_with h (f t) (g t)).
Proof.
  intros H (gs & G & E) (gs' & G' & E'). exists (zip_with (fun a b t => h (a t) (b t)) gs gs'). split.
  - clear - H G G'. revert gs' G'. induction G as [|a gs A _ IH]; intros [|b gs'] G'; try constructor; [apply H; [exact A|exact (Forall_inv G')]|apply IH; exact (Forall_inv_tail G')].
  - intro t. rewrite E, E'. clear. revert gs'. induction gs as [|a gs IH]; intros [|b gs']; try reflexivity. cbn [map zip_with]. now rewrite IH.
Qed.
Lemma ml_mask f mask : mlist f -> mlist (fun t => set_mask mask 0 (f t)).
Proof.
  intros (gs & G & E). exists (zip_with (fun (b : bool) g => if b then fun _ => 0 else g) mask gs). unfold set_mask. split.
  - clear - G. revert mask. induction G as [|a gs A _ IH]; intros [|b mask]; try constructor; [destruct b; [apply m_const|exact A]|apply IH].
  - intro t. rewrite E. clear. revert mask. induction gs as [|a gs IH]; intros [|b mask]; try reflexivity. cbn [map zip_with]. rewrite IH. now destruct b.
Qed.
Lemma ml_scatter mask f g : mlist f -> mlist g -> mlist (fun t => mask_scatter mask (f t) (g t)).
Proof.
  intros (gs & G & E) (gs' & G' & E'). exists (mask_scatter mask gs gs'). split.
  - clear - G G'. revert gs gs' G G'. induction mask as [|b mask IH]; intros gs gs' G G'; [exact G'|]. destruct gs' as [|y gs']; [exact G'|]. cbn [mask_scatter]. destruct b; [destruct gs as [|x gs]|]; constructor; try (apply IH); try (exact (Forall_inv G)); try exact (Forall_inv G'); try exact (Forall_inv_tail G'); try exact (Forall_inv_tail G); exact G.
  - intro t. rewrite E, E'. clear. revert gs gs'. induction mask as [|b mask IH]; intros gs gs'; [reflexivity|]. destruct gs' as [|y gs']; [reflexivity|]. cbn [map mask_scatter]. destruct b; [destruct gs as [|x gs]|]; cbn [map]; rewrite <- IH; reflexivity.
Qed.
Lemma m_rsum gs : Forall smp gs -> smp (fun t => rsum (map (fun g => g t) gs)).
Proof. intro G. induction G as [|g gs Hg _ IH]; [exact (m_const 0)|]. cbn [map rsum]. now apply m_plus. Qed.
Lemma blocks_map {A B} (h : A -> B) n l : blocks n (map h l) = map (map h) (blocks n l).
Proof. unfold blocks. rewrite map_length. generalize (length l). intro fuel. revert l. induction fuel as [|fuel IH]; intro l; [reflexivity|]. cbn [blocks_fuel]. destruct l as [|x l]; [reflexivity|]. cbn [map]. change (h x :: map h l) with (map h (x :: l)). now rewrite firstn_map, skipn_map, IH. Qed.
Lemma blocks_forall {A} (P : A -> Prop) n l : Forall P l -> Forall (Forall P) (blocks n l).
Proof.
  unfold blocks. generalize (length l). intro fuel. revert l. induction fuel as [|fuel IH]; intros l H; [constructor|]. cbn [blocks_fuel]. destruct l as [|x l]; [constructor|]. set (xl := x :: l) in *. rewrite <- (firstn_skipn n xl) in H. apply Forall_app in H as [H1 H2]. constructor; [exact H1|now apply IH].
Qed.
Lemma ml_sums f n : mlist f -> mlist (fun t => map rsum (blocks n (f t))).
Proof.
  intros (gs & G & E). exists (map (fun b t => rsum (map (fun g => g t) b)) (blocks n gs)). split.
  - apply (blocks_forall smp n) in G. apply Forall_forall. intros g Hg. apply in_map_iff in Hg as (b & <- & Hb). rewrite Forall_forall in G. exact (m_rsum b (G b Hb)).
  - intro t. now rewrite E, blocks_map, !map_map.
Qed.
Lemma ml_app f g : mlist f -> mlist g -> mlist (fun t => f t ++ g t).
Proof. intros (gs & G & E) (gs' & G' & E'). exists (gs ++ gs'). split; [now apply Forall_app|]. intro t. now rewrite E, E', map_app. Qed.
Lemma ml_cumsum f acc : mlist f -> smp acc -> mlist (fun t => rcumsum_from (acc t) (f t)).
Proof.
  intros (gs & G & E) HA. apply (ml_ext _ (fun t => rcumsum_from (acc t) (map (fun g => g t) gs))); [intro t; now rewrite E|]. clear f E. revert acc HA. induction G as [|g gs Hg _ IH]; intros acc HA; [exact (ml_const [])|]. cbn [map rcumsum_from].
  apply (ml_app (fun t => [acc t + g t]) (fun t => rcumsum_from (acc t + g t) (map (fun g => g t) gs))); [|apply (IH (fun t => acc t + g t)); now apply m_plus]. exists [fun t => acc t + g t]. split; [constructor; [now apply m_plus|constructor]|reflexivity].
Qed.
Lemma ml_cumsums f n : mlist f -> mlist (fun t => concat (map rcumsum (blocks n (f t)))).
Proof.
  intros (gs & G & E). apply (ml_ext _ (fun t => concat (map (fun b => rcumsum (map (fun g => g t) b)) (blocks n gs)))); [intro t; now rewrite E, blocks_map, map_map|]. apply (blocks_forall smp n) in G. clear E. induction G as [|b bs Hb _ IH]; [exact (ml_const [])|]. cbn [map concat]. apply ml_app; [|exact IH].
  apply (ml_cumsum (fun t => map (fun g => g t) b) (fun _ => 0)); [exists b; now split|apply m_const].
Qed.
Lemma ml_upd u p : mlist (fun t => upd u t p).
Proof.
  exists (upd u (fun t => t) (map (fun v => fun _ => v) p)). split.
  - assert (Q : forall l, Forall smp l -> forall u, Forall smp (upd u (fun t => t) l)) by (clear; induction l as [|a l IH]; intros H [|u]; cbn; try constructor; try apply m_id; try exact (Forall_inv H); try exact (Forall_inv_tail H); try (apply IH; exact (Forall_inv_tail H))).
    apply Q. apply Forall_forall. intros g Hg. apply in_map_iff in Hg as (v & <- & _). apply m_const.
  - intro t. revert u. induction p as [|a p IH]; intros [|u]; try reflexivity; cbn [upd map]; [f_equal; rewrite map_map; now rewrite map_id|]. now rewrite <- IH.
Qed.

(** ** The network *)
Lemma run_smooth bounded z G first n hp (ls : R -> list spl) hs (x : R -> list R) : (forall t, wired z G first n hp (ls t) hs) -> Forall (fun h => (h mod kinds bounded = 0)%nat) hs ->
  (forall k o i, (k < length hs)%nat -> (o < G * nth k hs O)%nat -> smp (fun t => layer_weight (nth k (ls t) no_layer) o i)) ->
  (forall k o, (k < length hs)%nat -> (o < G * nth k hs O)%nat -> smp (fun t => layer_bias (nth k (ls t) no_layer) o)) ->
  mlist x -> (forall t, length (x t) = n) -> exists y, mlist y /\ forall t, run_layers bounded (ls t) (x t) = Ok (y t).
Proof.
  revert first n hp ls x. induction hs as [|h hs IH]; intros first n hp ls x HW HM WS BS HX HL.
  - exists x. split; [exact HX|]. intro t. specialize (HW t). destruct (ls t); [reflexivity|contradiction].
  - assert (SP : forall t, exists l ls', ls t = l :: ls') by (intro t; specialize (HW t); destruct (ls t) as [|l ls']; [contradiction|eauto]).
    set (y := fun t => match split_activation bounded (spl_forward (nth 0 (ls t) no_layer) (x t)) with Ok y => y | Err _ => [] end).
    assert (Y : forall t, split_activation bounded (spl_forward (nth 0 (ls t) no_layer) (x t)) = Ok (y t) /\ length (y t) = (G * h)%nat /\ forall o, (o < G * h)%nat -> nth o (y t) 0 = act bounded o (predictor n (layer_weight (nth 0 (ls t) no_layer) o) (x t) + layer_bias (nth 0 (ls t) no_layer) o)).
    { intro t. unfold y. destruct (SP t) as (l & ls' & E). pose proof (HW t) as W. rewrite E in W |- *. cbn [wired] in W. destruct W as (W1 & W2 & W3 & _). cbn [nth]. destruct (layer_step bounded l (x t) G h W1 W3 (Forall_inv HM)) as (y0 & Y1 & Y2 & Y3); [now rewrite W2, HL|]. rewrite Y1. rewrite W2 in Y3. auto. }
    assert (YS : mlist y).
    { apply (ml_intro y (G * h)); [intro t; apply Y|]. intros o Ho. apply (m_ext _ (fun t => act bounded o (predictor n (layer_weight (nth 0 (ls t) no_layer) o) (x t) + layer_bias (nth 0 (ls t) no_layer) o))); [intro t; now apply Y|].
      apply m_comp; [apply act_smooth|]. apply m_plus; [|apply (BS O o); [cbn; lia|exact Ho]]. unfold predictor. apply (m_sumn n (fun i t => layer_weight (nth 0 (ls t) no_layer) o i * nth i (x t) 0)). intros i _. apply m_mult; [apply (WS O o i); [cbn; lia|exact Ho]|now apply ml_nth]. }
    destruct (IH false (G * h)%nat h (fun t => tl (ls t)) y) as (w & W1 & W2).
    + intro t. destruct (SP t) as (l & ls' & E). pose proof (HW t) as W. rewrite E in W |- *. cbn [wired] in W. cbn [tl]. apply W.
    + exact (Forall_inv_tail HM).
    + intros k o i Hk Ho. apply (m_ext _ (fun t => layer_weight (nth (S k) (ls t) no_layer) o i)); [|apply (WS (S k) o i); [cbn; lia|exact Ho]]. intro t. destruct (SP t) as (l & ls' & ->). reflexivity.
    + intros k o Hk Ho. apply (m_ext _ (fun t => layer_bias (nth (S k) (ls t) no_layer) o)); [|apply (BS (S k) o); [cbn; lia|exact Ho]]. intro t. destruct (SP t) as (l & ls' & ->). reflexivity.
    + exact YS.
    + intro t. apply Y.
    + exists w. split; [exact W1|]. intro t. rewrite <- W2. destruct (SP t) as (l & ls' & E). destruct (Y t) as (Y1 & _). rewrite E in Y1 |- *. cbn [nth] in Y1. cbn [run_layers tl]. rewrite Y1. reflexivity.
Qed.
Section Net.
Variables (m : mnn) (z : nat -> nat -> bool).
Hypothesis net : network m z.
Variable P : R -> list R.
Hypothesis moves : mlist P.
Hypothesis len : forall t, (length (net_parameters m) <= length (P t))%nat.
Let N t := with_net m (P t).
Lemma rows_slice rows d : exists a b, forall p, nth d (with_rows rows p) [] = firstn a (skipn b p).
Proof.
  revert d. induction rows as [|r rows IH]; intro d; [exists O, O; intro p; now destruct d|]. destruct d as [|d]; [exists (length r), O; reflexivity|]. destruct (IH d) as (a & b & H). exists a, (length r + b)%nat. intro p. cbn [with_rows nth]. rewrite H. f_equal. now rewrite skipn_skipn_add.
Qed.
Lemma lv_smooth d s : (d < n_lv m)%nat -> smp s -> exists y, mlist y /\ forall t, mnn_lv_output (N t) d (s t) = Ok (y t).
Proof.
  intros Hd HS. destruct (run_smooth (n_bounded m) (z d) (n_separations m) true 1 1 (fun t => nth d (n_layers (N t)) []) (n_hidden m) (fun t => [s t])) as (y & Y1 & Y2).
  - intro t. exact (nw_wired _ _ (network_with m z net (P t) (len t)) d Hd).
  - exact (hidden_mod m z net).
  - intros k o i Hk Ho. apply (m_ext _ (fun t => if nth i (nth o (sl_free (layer_of m d k)) []) false then softplus (nth (pos m (KW d k o i)) (P t) 0) else 0)); [intro t; exact (weight_read m z net (P t) d k o i (len t) Hd Hk)|]. apply m_if; [apply m_softplus, ml_nth, moves|apply m_const].
  - intros k o Hk Ho. destruct (shape_at m z net d k Hd Hk) as (_ & _ & O1 & _). fold (layer_of m d k) in O1. apply (m_ext _ (fun t => if nth o (sl_zero_out (layer_of m d k)) false then 0 else nth (pos m (KB d k o)) (P t) 0)); [intro t; apply (bias_read m z net (P t) d k o (len t) Hd Hk); now rewrite O1|]. apply m_if; [apply m_const|apply ml_nth, moves].
  - exists [s]. split; [now repeat constructor|reflexivity].
  - reflexivity.
  - destruct (rows_slice (n_neg m) d) as (a & b & R). pose (w := fun t => nth d (n_neg (N t)) []). assert (WS : mlist w) by (apply (ml_ext _ (fun t => firstn a (skipn b (skipn (length (n_bias m)) (skipn (length (layers_parameters (concat (n_layers m)))) (P t)))))); [intro t; apply R|]; apply ml_first; do 3 apply ml_skip; exact moves).
    eexists. split; [|intro t; unfold mnn_lv_output; change (n_bounded (N t)) with (n_bounded m); rewrite Y2; cbn [bind]; reflexivity]. cbn beta. destruct (n_negative m) eqn:EN.
    + apply (ml_ext _ (fun t => negation_forward (column false d (n_rel m)) (if n_sep_items m then 1%nat else n_max m) (if n_sep_items m then repeat false (n_items m) else missing_category (n_cats m) (n_max m)) (w t) (map rsum (blocks (last (n_hidden m) O) (y t))))).
      { intro t. change (n_negative (N t)) with (n_negative m). rewrite EN. reflexivity. }
      unfold negation_forward, negation_weight. apply ml_zip; [intros; now apply m_mult|apply ml_mask, ml_sums, Y1|apply ml_scatter; [apply ml_interleave, WS|apply ml_const]].
    + apply (ml_ext _ (fun t => map rsum (blocks (last (n_hidden m) O) (y t)))); [intro t; change (n_negative (N t)) with (n_negative m); now rewrite EN|]. apply ml_sums, Y1.
Qed.
(** Outputs that move, with the categories an item does not have fixed at minus infinity. *)
Definition mext (f : R -> list ext) : Prop := exists gs : list (option (R -> R)), Forall (fun o => match o with Some g => smp g | None => True end) gs /\ forall t, f t = map (fun o => match o with Some g => Fin (g t) | None => NInf end) gs.
Lemma bias_smooth cats b out : mlist b -> mlist out -> mext (fun t => add_category_bias cats (b t) (out t)).
Proof.
  intros HB HO. unfold add_category_bias. set (mask := missing_category cats (list_max cats)). assert (Q : mlist (fun t => zip_with Rplus (out t) (full_bias (map negb mask) (b t)))) by (apply ml_zip; [intros; now apply m_plus|exact HO|unfold full_bias; apply ml_scatter; [exact HB|apply ml_const]]).
  destruct Q as (gs & G & E). exists (set_mask mask None (map Some gs)). unfold set_mask. split.
  - clear - G. clearbody mask. revert mask. induction G as [|g gs Hg _ IH]; intros [|c mask]; try constructor; [destruct c; [exact I|exact Hg]|apply IH].
  - intro t. rewrite E. clear. clearbody mask. revert mask. induction gs as [|g gs IH]; intros [|c mask]; try reflexivity. cbn [map zip_with]. rewrite IH. now destruct c.
Qed.
Lemma forward_smooth s : mlist s -> (exists e, forall t, mnn_forward1 (N t) (s t) = Err e) \/ exists f, mext f /\ forall t, mnn_forward1 (N t) (s t) = Ok (f t).
Proof.
  intro HS. assert (Q : forall l acc, (forall d, In d l -> (d < n_lv m)%nat) -> mlist acc -> exists out, mlist out /\ forall t, bind (mapM (fun d => mnn_lv_output (N t) d (nth d (s t) 0)) l) (fun outs => Ok (fold_left vec_add outs (acc t))) = Ok (out t)).
  { induction l as [|d l IH]; intros acc Hl HA; [exists acc; split; [exact HA|reflexivity]|]. destruct (lv_smooth d (fun t => nth d (s t) 0)) as (y & Y1 & Y2); [apply Hl; now left|now apply ml_nth|].
    destruct (IH (fun t => vec_add (acc t) (y t))) as (out & O1 & O2); [intros; apply Hl; now right|unfold vec_add; apply ml_zip; [intros; now apply m_plus|exact HA|exact Y1]|]. exists out. split; [exact O1|]. intro t. cbn [mapM]. rewrite Y2. cbn [bind]. rewrite <- O2. destruct (mapM (fun d => mnn_lv_output (N t) d (nth d (s t) 0)) l); reflexivity. }
  destruct (Q (seq 0 (n_lv m)) (fun _ => repeat 0 (n_separations m))) as (out & O1 & O2); [intros d Hd; apply in_seq in Hd; lia|apply ml_const|].
  set (out2 := fun t => if n_sep_items m then repeat_interleave (n_max m) (out t) else out t). assert (S2 : mlist out2) by (unfold out2; destruct (n_sep_items m); [now apply ml_interleave|exact O1]).
  set (b := fun t => n_bias (N t)). assert (SB : mlist b) by (unfold b, N; cbn [with_net n_bias]; apply ml_first, ml_skip, moves).
  assert (E : forall t, mnn_forward1 (N t) (s t) = match n_key m with None => Ok (cumulative_logits (n_cats m) (b t) (out2 t)) | Some key => key_logits (n_cats m) key (b t) (out2 t) end).
  { intro t. unfold mnn_forward1. change (n_lv (N t)) with (n_lv m). specialize (O2 t). destruct (mapM (fun d => mnn_lv_output (N t) d (nth d (s t) 0)) (seq 0 (n_lv m))) as [outs|]; [|discriminate]. cbn [bind] in *. change (n_separations (N t)) with (n_separations m). injection O2 as ->. reflexivity. }
  destruct (n_key m) as [key|].
  - unfold key_logits in E. destruct (key_mask (length (n_cats m)) (list_max (n_cats m)) key) as [mask|e]; [|left; exists e; intro t; rewrite E; reflexivity]. cbn [bind] in E. pose proof (ml_sums out2 (list_max (n_cats m)) S2) as SS. destruct (ml_length _ SS) as (n & Hn). destruct (Nat.eqb_spec (ctrue mask) n) as [E1|E1].
    + right. exists (fun t => add_category_bias (n_cats m) (b t) (mask_scatter mask (map rsum (blocks (list_max (n_cats m)) (out2 t))) (out2 t))). split; [apply bias_smooth; [exact SB|apply ml_scatter; [exact SS|exact S2]]|]. intro t. rewrite E, Hn, <- E1, Nat.eqb_refl. reflexivity.
    + left. exists RuntimeError. intro t. rewrite E, Hn. destruct (Nat.eqb_spec (ctrue mask) n); [contradiction|reflexivity].
  - right. exists (fun t => cumulative_logits (n_cats m) (b t) (out2 t)). split; [|exact E]. unfold cumulative_logits. apply bias_smooth; [exact SB|now apply ml_cumsums].
Qed.
Lemma surprise_smooth M f i x : mext f -> smp (fun t => surprise M (f t) i x).
Proof.
  intros (gs & G & E). assert (NT : forall t j, nth j (f t) NInf = match nth j gs None with Some g => Fin (g t) | None => NInf end) by (intros t j; rewrite E; exact (map_nth (fun o => match o with Some g => Fin (g t) | None => NInf end) gs None j)).
  assert (GS : forall j g, nth j gs None = Some g -> smp g). { intros j g H. destruct (lt_dec j (length gs)) as [L|L]; [|rewrite nth_overflow in H by lia; discriminate]. rewrite Forall_forall in G. specialize (G (nth j gs None) (nth_In _ _ L)). now rewrite H in G. }
  unfold surprise. apply m_minus.
  - set (W := fun j t => match nth j gs None with Some g => exp (g t) | None => 0 end). assert (WS : forall j, smp (W j)) by (intro j; unfold W; destruct (nth j gs None) as [g|] eqn:Q; [apply m_exp, (GS j g Q)|apply m_const]).
    apply (m_ext _ (fun t => ln (sumn M (fun k => W (i * M + k)%nat t)))); [intro t; f_equal; apply sumn_ext; intros k _; unfold weight_of, W; rewrite NT; now destruct (nth (i * M + k) gs None)|].
    assert (D : (exists k, (k < M)%nat /\ nth (i * M + k) gs None <> None) \/ forall k, (k < M)%nat -> nth (i * M + k) gs None = None).
    { clear. induction M as [|n IH]; [right; intros; lia|]. generalize (i * S n)%nat. intro c. clear IH. assert (Q : forall n, (exists k, (k < n)%nat /\ nth (c + k) gs None <> None) \/ forall k, (k < n)%nat -> nth (c + k) gs None = None); [|apply Q]. clear. induction n as [|n [(k & H1 & H2)|IH]]; [right; intros; lia|left; exists k; split; [lia|exact H2]|]. destruct (nth (c + n) gs None) as [g|] eqn:Q; [left; exists n; split; [lia|rewrite Q; discriminate]|]. right. intros k Hk. destruct (Nat.eq_dec k n) as [->|]; [exact Q|apply IH; lia]. }
    destruct D as [(k & Hk & Hn)|D].
    + apply m_ln; [apply (m_sumn M (fun k => W (i * M + k)%nat)); intros; apply WS|]. intro t. assert (NN : forall j, 0 <= W j t) by (intro j; unfold W; destruct (nth j gs None); [left; apply exp_pos|lra]).
      assert (Q : forall n, (forall k, (k < n)%nat -> 0 <= W (i * M + k)%nat t) -> forall k, (k < n)%nat -> 0 < W (i * M + k)%nat t -> 0 < sumn n (fun k => W (i * M + k)%nat t)).
      { induction n as [|n IH]; intros H1 j Hj H2; [lia|]. cbn [sumn]. assert (H3 : 0 <= sumn n (fun k => W (i * M + k)%nat t)) by (apply sumn_nonneg; intros; apply NN). pose proof (NN (i * M + n)%nat). destruct (Nat.eq_dec j n) as [->|]; [lra|]. pose proof (IH ltac:(intros; apply NN) j ltac:(lia) H2). lra. }
      apply (Q M ltac:(intros; apply NN) k Hk). unfold W. destruct (nth (i * M + k) gs None); [apply exp_pos|contradiction].
    + apply (m_ext _ (fun _ => ln (sumn M (fun _ => 0)))); [|apply m_const]. intro t. f_equal. apply sumn_ext. intros k Hk. unfold W. now rewrite D.
  - destruct (nth (i * M + x) gs None) as [g|] eqn:Q; [apply (m_ext _ g); [intro t; now rewrite NT, Q|exact (GS _ _ Q)]|apply (m_ext _ (fun _ => 0)); [intro t; now rewrite NT, Q|apply m_const]].
Qed.
Lemma entropy_smooth M (data : R -> list (list R * list nat)) (rows : list ((R -> list R) * list nat)) : Forall (fun r => mlist (fst r)) rows -> (forall t, data t = map (fun r => (fst r t, snd r)) rows) -> smp (fun t => cross_entropy M (data t) (mnn_forward1 (N t))).
Proof.
  intros HR HD. apply (m_ext _ (fun t => cross_entropy M (map (fun r => (fst r t, snd r)) rows) (mnn_forward1 (N t)))); [intro t; now rewrite HD|]. clear HD. unfold cross_entropy. induction HR as [|[s a] rows Hs _ IH]; [exact (m_const 0)|]. cbn [map rsum fst snd] in *. apply m_plus; [|exact IH].
  destruct (forward_smooth s Hs) as [(e & E)|(f & F & E)]; [apply (m_ext _ (fun _ => 0)); [intro t; now rewrite E|apply m_const]|].
  apply (m_ext _ (fun t => rsum (map (fun ix => surprise M (f t) (fst ix) (snd ix)) (combine (seq 0 (length a)) a)))); [intro t; now rewrite E|].
  generalize (combine (seq 0 (length a)) a). intro l. induction l as [|[i x] l IHl]; [exact (m_const 0)|]. cbn [map rsum fst snd]. apply m_plus; [now apply surprise_smooth|exact IHl].
Qed.
End Net.
(** ** Gradients *)
Lemma the_number (Q : R -> Prop) : (exists l, Q l) -> (forall a b, Q a -> Q b -> a = b) -> {l | Q l}.
Proof.
  intros H U. destruct (completeness (fun x => exists l, Q l /\ x <= l)) as (s & S1 & S2).
  - destruct H as (l & Hl). exists l. intros x (l' & H' & L). now rewrite (U l l' Hl H').
  - destruct H as (l & Hl). exists l, l. split; [exact Hl|lra].
  - exists s. destruct H as (l & Hl). replace s with l; [exact Hl|]. apply Rle_antisym; [apply S1; exists l; split; [exact Hl|lra]|]. apply S2. intros x (l' & H' & L). now rewrite (U l l' Hl H').
Qed.
Lemma gradient_of n F : (forall p u, length p = n -> (u < n)%nat -> smp (fun t => F (upd u t p))) -> {g | gradient n F g}.
Proof.
  intro H. assert (D : forall p u, length p = n -> (u < n)%nat -> {l | derivable_pt_lim (fun t => F (upd u t p)) (nth u p 0) l}) by (intros p u HL Hu; apply the_number; [apply (H p u HL Hu)|intros a b Ha Hb; exact (uniqueness_limite _ _ _ _ Ha Hb)]).
  exists (fun p => map (fun u => match Nat.eq_dec (length p) n, lt_dec u n with left HL, left Hu => proj1_sig (D p u HL Hu) | _, _ => 0 end) (seq 0 n)).
  intros p HL. split; [now rewrite map_length, seq_length|]. intros k Hk. rewrite (nth_map_seq (fun u => match Nat.eq_dec (length p) n, lt_dec u n with left HL, left Hu => proj1_sig (D p u HL Hu) | _, _ => 0 end) n k 0 Hk).
  destruct (Nat.eq_dec (length p) n) as [E1|]; [|contradiction]. destruct (lt_dec k n) as [E2|]; [|contradiction]. exact (proj2_sig (D p k E1 E2)).
Qed.
Lemma joint_gradient m z M lv b n : network m z -> (length (net_parameters m) <= n)%nat -> {g | gradient n (batch_loss m (joint_loss M lv) b) g}.
Proof.
  intros NW HN. apply gradient_of. intros p u HL Hu. unfold batch_loss, joint_loss. apply (entropy_smooth m z NW (fun t => upd u t p) (ml_upd u p) ltac:(intro t; cbv beta; rewrite upd_length; lia) M _ (map (fun r => (fun t => score_of lv (skipn (length (net_parameters m)) (upd u t p)) (fst r), snd r)) b)).
  - apply Forall_forall. intros r Hr. apply in_map_iff in Hr as ([j a] & <- & _). cbn [fst]. unfold score_of. exists (map (fun d t => nth (j * lv + d) (skipn (length (net_parameters m)) (upd u t p)) 0) (seq 0 lv)). split; [|intro t; now rewrite map_map].
    apply Forall_forall. intros g Hg. apply in_map_iff in Hg as (d & <- & _). apply (ml_nth (fun t => skipn (length (net_parameters m)) (upd u t p))), ml_skip, ml_upd.
  - intro t. now rewrite map_map.
Qed.
Lemma marginal_gradient m z M points b n : network m z -> (length (net_parameters m) <= n)%nat -> points <> [] -> Forall (fun q => 0 < fst q) points -> {g | gradient n (batch_loss m (marginal_loss M points) b) g}.
Proof.
  intros NW HN H0 HP. apply gradient_of. intros p u HL Hu. unfold batch_loss, marginal_loss. apply m_opp. induction b as [|a b IH]; [exact (m_const 0)|]. cbn [map rsum]. apply m_plus; [|exact IH]. clear IH.
  assert (S : forall q : R * list R, smp (fun t => exp (- cross_entropy M [(snd q, a)] (mnn_forward1 (with_net m (upd u t p)))))).
  { intro q. apply m_exp, m_opp. apply (entropy_smooth m z NW (fun t => upd u t p) (ml_upd u p) ltac:(intro t; cbv beta; rewrite upd_length; lia) M (fun _ => [(snd q, a)]) [((fun _ => snd q), a)]); [repeat constructor; apply ml_const|reflexivity]. }
  apply m_ln.
  - clear H0 HP. induction points as [|q points IH]; [exact (m_const 0)|]. cbn [map rsum]. apply m_plus; [|exact IH]. apply m_mult; [apply m_const|apply S].
  - intro t. destruct points as [|q points]; [congruence|]. cbn [map rsum]. apply Rplus_lt_le_0_compat; [apply Rmult_lt_0_compat; [exact (Forall_inv HP)|apply exp_pos]|]. apply Forall_inv_tail in HP. clear - HP. induction HP as [|q' l Hq _ IH]; [apply Rle_refl|]. cbn [map rsum]. pose proof (Rmult_lt_0_compat _ _ Hq (exp_pos (- cross_entropy M [(snd q', a)] (mnn_forward1 (with_net m (upd u t p)))))). lra.
Qed.
