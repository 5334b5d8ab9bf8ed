(** Histories of fits; pairing in joint maximum likelihood. *)
From Coq Require Import Reals.
From Verif Require Import Base BaseFacts RBase RFacts M_Data M_State S_State.
Local Open Scope nat_scope.

Definition width_ok (w : nat) (s : store) : Prop := match st_data s with None => True | Some (c, _) => c = w end.
Definition kept_rows (s : store) : list (list cell) := match st_data s with None => [] | Some (_, r) => r end.

Lemma append_ok : forall d s, width_ok (m_cols d) s ->
  append_data d s = Ok (Store (Some (m_cols d, kept_rows s ++ m_rows d)) (st_scores s)).
Proof.
  intros d s H. unfold append_data, width_ok, kept_rows in *. destruct (st_data s) as [[c rows]|]; [|reflexivity].
  subst c. rewrite Nat.eqb_refl. reflexivity.
Qed.

Lemma append_bad : forall d s c rows, st_data s = Some (c, rows) -> c <> m_cols d -> append_data d s = Err RuntimeError.
Proof. intros d s c rows E H. unfold append_data. rewrite E. rewrite (proj2 (Nat.eqb_neq _ _) H). reflexivity. Qed.

Lemma fit_data : forall c s, width_ok (m_cols (call_data c)) s ->
  st_data (fst (run_fit c s)) = Some (m_cols (call_data c), kept_rows s ++ rows_of_call c).
Proof.
  intros c s H. unfold rows_of_call.
  destruct c as [d lv start default trained | d lv o | d b i t]; cbn [call_data] in *; unfold run_fit; rewrite (append_ok d s H); cbn [st_data].
  - destruct (jml_start d lv start default); [destruct trained|]; reflexivity.
  - reflexivity.
  - destruct b; [destruct i; [destruct t|]|]; reflexivity.
Qed.

Lemma fit_bad_width : forall c s w rows, st_data s = Some (w, rows) -> w <> m_cols (call_data c) -> run_fit c s = (s, Err RuntimeError).
Proof.
  intros c s w rows E H. destruct c; cbn [call_data] in *; unfold run_fit; rewrite (append_bad _ _ _ _ E H); reflexivity.
Qed.

Lemma fits_snoc : forall cs c s, run_fits (cs ++ [c]) s = fst (run_fit c (run_fits cs s)).
Proof. intros. unfold run_fits. rewrite fold_left_app. reflexivity. Qed.

Lemma fits_data_gen : forall w cs s, Forall (fun c => m_cols (call_data c) = w) cs -> width_ok w s ->
  (cs = [] /\ run_fits cs s = s) \/
  st_data (run_fits cs s) = Some (w, kept_rows s ++ flat_map rows_of_call cs).
Proof.
  intros w cs s H Hs. induction cs as [|c cs IH] using rev_ind; [left; split; reflexivity|]. right.
  apply Forall_app in H. destruct H as [H1 H2]. inversion H2 as [|a l Ha _]; subst a l.
  rewrite fits_snoc. rewrite flat_map_app. cbn [flat_map]. rewrite app_nil_r.
  assert (Hw : width_ok (m_cols (call_data c)) (run_fits cs s) /\ kept_rows (run_fits cs s) = kept_rows s ++ flat_map rows_of_call cs).
  { destruct (IH H1) as [[-> ->]|E].
    - rewrite Ha. split; [exact Hs | cbn [flat_map]; rewrite app_nil_r; reflexivity].
    - unfold width_ok, kept_rows. rewrite E. rewrite Ha. split; reflexivity. }
  destruct Hw as [Hw Hk]. rewrite (fit_data _ _ Hw), Hk, Ha, app_assoc. reflexivity.
Qed.

Theorem fits_data : forall w cs, cs <> [] -> Forall (fun c => m_cols (call_data c) = w) cs ->
  st_data (run_fits cs new_store) = Some (w, flat_map rows_of_call cs).
Proof.
  intros w cs Hc H. destruct (fits_data_gen w cs new_store H I) as [[E _]|E]; [contradiction | exact E].
Qed.

Lemma fits_width : forall w cs, Forall (fun c => m_cols (call_data c) = w) cs -> width_ok w (run_fits cs new_store).
Proof.
  intros w cs H. destruct (fits_data_gen w cs new_store H I) as [[-> ->]|E]; [exact I|]. unfold width_ok. rewrite E. reflexivity.
Qed.

(** The scores after a successful call. *)
Lemma fit_scores : forall c s, width_ok (m_cols (call_data c)) s -> succeeds c -> stores_scores c ->
  snd (run_fit c s) = Ok tt /\ exists x, st_scores (fst (run_fit c s)) = Some x /\ length x = length (rows_of_call c).
Proof.
  intros c s H Hs Hst. unfold rows_of_call.
  destruct c as [d lv start default trained | d lv o | d b i t]; cbn [call_data succeeds stores_scores] in *; [|contradiction|]; unfold run_fit; rewrite (append_ok d s H).
  - destruct Hs as [(g & ->) Hs].
    assert (Ej : exists t, jml_start d lv start default = Ok t /\ length t = length (m_rows d)).
    { destruct start as [[n x]|]; cbn [jml_start].
      - destruct Hs as [Hl ->]. rewrite Hl, !Nat.eqb_refl. cbn [negb]. exists x. auto.
      - eexists. split; [reflexivity|]. rewrite map_length, seq_length. reflexivity. }
    destruct Ej as (t & -> & Ht). split; [reflexivity|]. eexists. split; [reflexivity|]. unfold train_thetas. rewrite mapi_length. exact Ht.
  - destruct Hs as (-> & (x & ->) & (g & ->)). split; [reflexivity|]. eexists. split; [reflexivity|]. rewrite map_length, seq_length. reflexivity.
Qed.

Lemma encoder_scores : forall d x g s, width_ok (m_cols d) s ->
  st_scores (fst (run_fit (FitEncoder d true (Ok x) (Ok g)) s)) = Some (map (fun r => g (x r)) (seq 0 (length (m_rows d)))).
Proof. intros d x g s H. unfold run_fit. rewrite (append_ok d s H). reflexivity. Qed.

Lemma marginal_scores : forall cs s, (forall c, In c cs -> ~ stores_scores c) -> st_scores (run_fits cs s) = st_scores s.
Proof.
  intros cs s H. induction cs as [|c cs IH] using rev_ind; [reflexivity|]. rewrite fits_snoc.
  rewrite <- IH by (intros c' Hc'; apply H; apply in_or_app; left; exact Hc').
  assert (Hc : ~ stores_scores c) by (apply H; apply in_or_app; right; left; reflexivity).
  destruct c as [| d lv o |]; cbn [stores_scores] in Hc; try (destruct Hc; exact I).
  unfold run_fit. set (s1 := run_fits cs s). unfold append_data. destruct (st_data s1) as [[c rows]|]; [destruct (c =? m_cols d)|]; reflexivity.
Qed.

(** The pairs of one epoch. *)
Lemma combine_map_seq : forall {A B} (da : A) (db : B) la lb, length la = length lb ->
  map (fun i => (nth i la da, nth i lb db)) (seq 0 (length la)) = combine la lb.
Proof.
  intros A B da db la. induction la as [|a la IH]; intros [|b lb] H; try discriminate H; [reflexivity|].
  cbn [length seq map combine nth]. f_equal. rewrite <- seq_shift, map_map. cbn [nth]. apply IH. injection H as H. exact H.
Qed.

Theorem joint_pairs : forall {A B} (da : A) (db : B) bs data thetas, 0 < bs -> length thetas = length data ->
  concat (joint_batches da db bs data thetas) = combine data thetas /\
  length (joint_batches da db bs data thetas) = ceil_div (length data) bs.
Proof.
  intros A B da db bs data thetas Hb HL. unfold joint_batches. split.
  - rewrite <- concat_map, blocks_concat by exact Hb. apply combine_map_seq. auto.
  - rewrite map_length, blocks_length by exact Hb. rewrite seq_length. reflexivity.
Qed.
