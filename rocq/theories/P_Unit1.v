(** Lemmas: which units of a monotone neural network are connected; the network with other parameters. *)
From Verif Require Import Base BaseFacts RBase RFacts M_Data M_CV M_Logit M_Mono M_Lik M_Est M_Train M_Mix M_Quad M_Adam P_Logit P_Mono1 P_Mono2 P_Mono3 P_Mono4 P_Mono5 P_Twin1 P_Twin2 S_Logit S_Mono S_Twin S_Unit.
Import List.
Local Open Scope R_scope.

Fixpoint wired (z : nat -> bool) (G : nat) (first : bool) (n_in hp : nat) (ls : list spl) (hs : list nat) : Prop :=
  match ls, hs with
  | [], [] => True
  | l :: ls', h :: hs' =>
      spl_wf l /\ sl_in l = n_in /\ sl_out l = (G * h)%nat /\ (0 < h)%nat /\ (forall o, (o < G * h)%nat -> nth o (sl_zero_out l) false = z (o / h)%nat) /\
      (forall o i, (o < G * h)%nat -> (i < n_in)%nat -> nth i (nth o (sl_free l) []) false = (negb (z (o / h)%nat) && (first || (o / h =? i / hp)%nat))%bool) /\
      wired z G false (G * h) h ls' hs'
  | _, _ => False
  end.
Definition silent (cats : list nat) (sep : bool) (rel : list bool) (s : nat) : bool := nth s (layer_zero_out cats sep rel 1) false.

Lemma repeat_interleave_nth_div {A} (l : list A) h o z : (0 < h)%nat -> nth o (repeat_interleave h l) z = nth (o / h) l z.
Proof.
  intro Hh. destruct (Nat.lt_ge_cases o (length l * h)) as [H|H].
  - apply nth_error_nth. rewrite (Nat.div_mod o h) at 1 by lia. rewrite (Nat.mul_comm h). rewrite nth_error_repeat_interleave by (apply Nat.mod_upper_bound; lia).
    apply nth_error_nth_lt. apply Nat.div_lt_upper_bound; lia.
  - rewrite !nth_overflow; [reflexivity| |rewrite repeat_interleave_length; lia]. apply Nat.div_le_lower_bound; lia.
Qed.
Lemma zero_out_silent cats sep rel h o : length rel = length cats -> (0 < list_max cats)%nat -> (0 < h)%nat -> (o < ngroups cats sep * h)%nat -> nth o (layer_zero_out cats sep rel h) false = silent cats sep rel (o / h).
Proof.
  intros HR HM Hh Ho. unfold silent, layer_zero_out, ngroups in *. destruct sep.
  - rewrite !repeat_interleave_nth_div by lia. now rewrite Nat.div_1_r.
  - assert (Hq : (o / h < length cats * list_max cats)%nat) by (apply Nat.div_lt_upper_bound; lia).
    rewrite !(nth_zip_with orb _ _ _ false false) by (rewrite repeat_interleave_length, ?missing_category_length, ?map_length; nia).
    rewrite !repeat_interleave_nth_div by nia. rewrite Nat.div_1_r, Nat.mul_1_l, Nat.div_div by lia. reflexivity.
Qed.
Lemma spl_init_wired n_in n_out sin sout zin zo l : spl_init n_in n_out sin sout zin (Some zo) true = Ok l -> (0 < n_in)%nat -> length zo = n_out -> (forall z, zin = Some z -> length z = n_in) ->
  spl_wf l /\ sl_in l = n_in /\ sl_out l = n_out /\ sl_zero_out l = zo.
Proof.
  intros H Hn Hz Hi. destruct (spl_init_wf _ _ _ _ _ _ _ H Hn Hi) as (W & W1 & W2); [intros z E; now injection E as <-|]. repeat split; try assumption; try apply W. exact (spl_zero_out_init _ _ _ _ _ _ _ _ H).
Qed.
Lemma block_slice b g i : (0 < b)%nat -> ((g * b <= i < g * b + b)%nat <-> (i / b)%nat = g).
Proof. intro Hb. pose proof (Nat.div_mod i b ltac:(lia)). pose proof (Nat.mod_upper_bound i b ltac:(lia)). split; intro Q; nia. Qed.
Lemma offset_repeat b n g : (g <= n)%nat -> offset (repeat b n) g = (g * b)%nat.
Proof. revert g; induction n as [|n IH]; intros [|g] H; try lia; try reflexivity. cbn [repeat]. unfold offset in *. cbn [firstn]. unfold list_sum in *. cbn [fold_right]. rewrite IH by lia. lia. Qed.
Lemma hidden_wired cats sep rel prev zprev hs ls : length rel = length cats -> (0 < list_max cats)%nat -> (0 < ngroups cats sep)%nat -> (0 < prev)%nat ->
  zprev = layer_zero_out cats sep rel prev -> Forall (fun h => (0 < h)%nat) hs ->
  mnn_hidden_layers cats sep rel prev zprev hs = Ok ls -> wired (silent cats sep rel) (ngroups cats sep) false (ngroups cats sep * prev) prev ls hs.
Proof.
  intros HR HM HG. revert prev zprev ls; induction hs as [|h hs IH]; intros prev zprev ls Hp Hz Hh H; [injection H as <-; exact I|].
  cbn [mnn_hidden_layers] in H. fold (ngroups cats sep) in H. set (G := ngroups cats sep) in *.
  destruct (spl_init (prev * G) (G * h) (Some (repeat prev G)) (Some (repeat h G)) (Some zprev) (Some (layer_zero_out cats sep rel h)) true) as [l|] eqn:E; [|discriminate].
  cbn [bind] in H. destruct (mnn_hidden_layers cats sep rel h (layer_zero_out cats sep rel h) hs) as [ls'|] eqn:E2; [|discriminate]. injection H as <-.
  pose proof (Forall_inv Hh) as H1. pose proof (Forall_inv_tail Hh) as H2. pose proof (layer_zero_out_length cats sep rel h HR) as LZ. pose proof (layer_zero_out_length cats sep rel prev HR) as LP. fold G in LZ, LP.
  assert (HI : forall z, Some zprev = Some z -> length z = (prev * G)%nat) by (intros z Q; injection Q as <-; rewrite Hz, LP; apply Nat.mul_comm).
  destruct (spl_init_wired _ _ _ _ _ _ _ E) as (W & W1 & W2 & W3); [nia|exact LZ|exact HI|]. cbn [wired].
  split; [exact W|]. split; [rewrite W1; apply Nat.mul_comm|]. split; [exact W2|]. split; [exact H1|]. split; [intros o Ho; rewrite W3; now apply zero_out_silent|]. split; [|now apply (IH h (layer_zero_out cats sep rel h))].
  intros o i Ho Hi. rewrite (spl_free_at _ _ _ _ _ _ _ _ o i E HI) by (try lia; intros z Q; injection Q as <-; exact LZ). rewrite W3, zero_out_silent by assumption. cbn [orb].
  assert (Hq : (o / h < G)%nat) by (apply Nat.div_lt_upper_bound; lia). assert (Hqi : (i / prev < G)%nat) by (apply Nat.div_lt_upper_bound; lia).
  assert (NR : forall b : nat, nth_error (repeat b G) (o / h) = Some b) by (intro b; now apply nth_error_repeat_lt).
  rewrite (separate_weights_spec _ _ _ _ (o / h) prev h o i (NR prev) (NR h)); [|rewrite offset_repeat by lia; now apply block_slice|exact Ho|lia]. rewrite offset_repeat by lia.
  rewrite Hz, zero_out_silent by (try assumption; fold G; lia).
  assert (EI : in_slice (o / h * prev) prev i = (o / h =? i / prev)%nat).
  { apply eq_true_iff_eq. rewrite in_slice_spec, block_slice, Nat.eqb_eq by exact Hp. split; auto. }
  rewrite EI. destruct (Nat.eqb_spec (o / h) (i / prev)) as [->|]; [|now rewrite !andb_false_r]. destruct (silent cats sep rel (i / prev)); reflexivity.
Qed.
Lemma layers_wired cats sep rel hs ls : length rel = length cats -> (0 < list_max cats)%nat -> (0 < ngroups cats sep)%nat -> Forall (fun h => (0 < h)%nat) hs ->
  mnn_layers cats sep rel hs = Ok ls -> wired (silent cats sep rel) (ngroups cats sep) true 1 1 ls hs.
Proof.
  intros HR HM HG Hh H. destruct hs as [|h hs]; [discriminate|]. cbn [mnn_layers] in H. fold (ngroups cats sep) in H. set (G := ngroups cats sep) in *.
  destruct (spl_init 1 (G * h) None None None (Some (layer_zero_out cats sep rel h)) true) as [l|] eqn:E; [|discriminate].
  cbn [bind] in H. destruct (mnn_hidden_layers cats sep rel h (layer_zero_out cats sep rel h) hs) as [ls'|] eqn:E2; [|discriminate]. injection H as <-.
  pose proof (Forall_inv Hh) as H1. pose proof (Forall_inv_tail Hh) as H2. pose proof (layer_zero_out_length cats sep rel h HR) as LZ. fold G in LZ.
  destruct (spl_init_wired _ _ _ _ _ _ _ E) as (W & W1 & W2 & W3); [lia|exact LZ|discriminate|]. cbn [wired].
  split; [exact W|]. split; [exact W1|]. split; [exact W2|]. split; [exact H1|]. split; [intros o Ho; rewrite W3; now apply zero_out_silent|]. split; [|now apply (hidden_wired cats sep rel h (layer_zero_out cats sep rel h))].
  intros o i Ho Hi. rewrite (spl_free_at _ _ _ _ _ _ _ _ o i E) by (try lia; try discriminate; intros z Q; injection Q as <-; exact LZ). rewrite W3, zero_out_silent by assumption. now rewrite !andb_true_r.
Qed.
Lemma same_wired z G first n_in hp ls ls' hs : Forall2 same_layer ls ls' -> wired z G first n_in hp ls hs -> wired z G first n_in hp ls' hs.
Proof.
  intro H. revert first n_in hp hs; induction H as [|l l' ls ls' Hl _ IH]; intros first n_in hp [|h hs]; cbn [wired]; auto.
  intros (W & W1 & W2 & W3 & W4 & W5 & W6). destruct (same_layer_ok _ _ Hl) as [S1 _]. destruct Hl as (E1 & E2 & E3 & E4 & E5 & E6 & E7). rewrite E1, E2, E4, E5. auto 8.
Qed.

(** ** The network with other parameters *)
Lemma layer_size l : length (layer_parameters l) = (length (sl_raw l) + length (sl_bias l))%nat.
Proof. apply app_length. Qed.
Lemma layers_size l ls : length (layers_parameters (l :: ls)) = (length (layer_parameters l) + length (layers_parameters ls))%nat.
Proof. unfold layers_parameters. cbn [map concat]. apply app_length. Qed.
Lemma layers_app ls ls' : layers_parameters (ls ++ ls') = layers_parameters ls ++ layers_parameters ls'.
Proof. unfold layers_parameters. now rewrite map_app, concat_app. Qed.
Lemma with_layer_same l p : (length (layer_parameters l) <= length p)%nat -> same_layer l (with_layer l p).
Proof. intro H. rewrite layer_size in H. unfold same_layer, with_layer. cbn. rewrite !firstn_length, skipn_length. repeat split; lia. Qed.
Lemma with_layers_same ls p : (length (layers_parameters ls) <= length p)%nat -> Forall2 same_layer ls (with_layers ls p).
Proof.
  revert p; induction ls as [|l ls IH]; intros p H; [constructor|]. rewrite layers_size in H. cbn [with_layers]. constructor; [apply with_layer_same; lia|]. apply IH. rewrite skipn_length. lia.
Qed.
Lemma with_stacks_same lss p : (length (layers_parameters (concat lss)) <= length p)%nat -> Forall2 (Forall2 same_layer) lss (with_stacks lss p).
Proof.
  revert p; induction lss as [|ls lss IH]; intros p H; [constructor|]. cbn [concat] in H. rewrite layers_app, app_length in H. cbn [with_stacks]. constructor; [apply with_layers_same; lia|]. apply IH. rewrite skipn_length. lia.
Qed.
Lemma with_rows_same rows p : (length (concat rows) <= length p)%nat -> Forall2 (fun a b : list R => length b = length a) rows (with_rows rows p).
Proof.
  revert p; induction rows as [|r rows IH]; intros p H; [constructor|]. cbn [concat] in H. rewrite app_length in H. cbn [with_rows]. constructor; [rewrite firstn_length; lia|]. apply IH. rewrite skipn_length. lia.
Qed.
Lemma with_net_same m p : (length (net_parameters m) <= length p)%nat -> same_mnn m (with_net m p).
Proof.
  intro H. unfold net_parameters in H. rewrite !app_length in H. unfold same_mnn, with_net. cbn. repeat split.
  - rewrite firstn_length, skipn_length. lia.
  - apply with_stacks_same. lia.
  - apply with_rows_same. rewrite !skipn_length. lia.
Qed.
Lemma firstn_len_app {A} (a b : list A) : firstn (length a) (a ++ b) = a.
Proof. induction a as [|x a IH]; [now destruct b|]. cbn. now rewrite IH. Qed.
Lemma skipn_len_app {A} (a b : list A) : skipn (length a) (a ++ b) = b.
Proof. induction a; [reflexivity|exact IHa]. Qed.
Lemma with_layer_own l q : with_layer l (layer_parameters l ++ q) = l.
Proof. unfold with_layer, layer_parameters. rewrite <- app_assoc, firstn_len_app, skipn_len_app, firstn_len_app. now destruct l. Qed.
Lemma with_layers_own ls q : with_layers ls (layers_parameters ls ++ q) = ls.
Proof. induction ls as [|l ls IH]; [reflexivity|]. unfold layers_parameters in *. cbn [map concat with_layers]. rewrite <- app_assoc, with_layer_own, skipn_len_app. now rewrite IH. Qed.
Lemma with_stacks_own lss q : with_stacks lss (layers_parameters (concat lss) ++ q) = lss.
Proof. induction lss as [|ls lss IH]; [reflexivity|]. cbn [concat with_stacks]. rewrite layers_app, <- app_assoc, with_layers_own, skipn_len_app. now rewrite IH. Qed.
Lemma with_rows_own rows q : with_rows rows (concat rows ++ q) = rows.
Proof. induction rows as [|r rows IH]; [reflexivity|]. cbn [concat with_rows]. rewrite <- app_assoc, firstn_len_app, skipn_len_app. now rewrite IH. Qed.
(** Reading the parameters back. *)
Lemma with_net_own m q : with_net m (net_parameters m ++ q) = m.
Proof. unfold with_net, net_parameters. rewrite <- !app_assoc, with_stacks_own, !skipn_len_app, firstn_len_app, with_rows_own. now destruct m. Qed.
Lemma parameters_layers ls p : (length (layers_parameters ls) <= length p)%nat -> layers_parameters (with_layers ls p) = firstn (length (layers_parameters ls)) p.
Proof.
  revert p. induction ls as [|l ls IH]; intros p H; [reflexivity|]. unfold layers_parameters in *. cbn [map concat with_layers] in *. rewrite app_length in *. rewrite IH by (rewrite skipn_length; lia).
  replace (layer_parameters (with_layer l p)) with (firstn (length (layer_parameters l)) p).
  - symmetry. rewrite <- (firstn_skipn (length (layer_parameters l)) p) at 1. rewrite firstn_app, firstn_firstn, firstn_length. rewrite Nat.min_r by lia. f_equal. f_equal. lia.
  - unfold layer_parameters, with_layer in *. cbn [sl_raw sl_bias]. rewrite app_length in *. symmetry. rewrite <- (firstn_skipn (length (sl_raw l)) p) at 3. rewrite firstn_app, firstn_firstn, firstn_length. rewrite Nat.min_r by lia. f_equal. f_equal. lia.
Qed.
Lemma take_more {A} a b (p : list A) : firstn a p ++ firstn b (skipn a p) = firstn (a + b) p.
Proof. revert p. induction a as [|a IH]; intro p; [reflexivity|]. destruct p as [|x p]; [cbn; now destruct b|]. cbn [firstn skipn app Nat.add]. now rewrite IH. Qed.
Lemma parameters_stacks lss p : (length (layers_parameters (concat lss)) <= length p)%nat -> layers_parameters (concat (with_stacks lss p)) = firstn (length (layers_parameters (concat lss))) p.
Proof.
  revert p. induction lss as [|ls lss IH]; intros p H; [reflexivity|]. cbn [concat with_stacks] in *. rewrite layers_app, app_length in *. rewrite layers_app, parameters_layers by lia. rewrite IH by (rewrite skipn_length; lia). rewrite app_length. apply take_more.
Qed.
Lemma parameters_rows rows p : concat (with_rows rows p) = firstn (length (concat rows)) p.
Proof. revert p. induction rows as [|r rows IH]; intro p; [reflexivity|]. cbn [concat with_rows]. rewrite IH, app_length. apply take_more. Qed.
Lemma parameters_with m p : (length (net_parameters m) <= length p)%nat -> net_parameters (with_net m p) = firstn (length (net_parameters m)) p.
Proof.
  intro H. unfold net_parameters in *. cbn [with_net n_layers n_bias n_neg]. rewrite !app_length in *. rewrite parameters_stacks by lia. rewrite parameters_rows. rewrite take_more. apply take_more.
Qed.
