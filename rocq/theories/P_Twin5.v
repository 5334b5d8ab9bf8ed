(** Lemmas: the integration rules of MML are symmetric in the latent variables. *)
From Coq Require Import Permutation.
From Verif Require Import Base BaseFacts RBase RFacts M_Data M_CV M_Logit M_Lik M_Est M_Stat M_Train M_Mix M_Quad M_Adam P_Data P_Logit P_Lik2 P_Est3 P_Stat4 P_Mix1 P_Quad1 P_Quad2 P_Quad3 P_Sym1 P_Sym2 P_Sym3 P_Sym4 P_Twin1 P_Twin2 S_Logit S_Lik S_Est S_Sym S_Twin.
Import List.
Local Open Scope R_scope.

(** ** Grids as maps over lists of indices *)
Definition indices (m n : nat) : list (list nat) := product (repeat (seq 0 m) n).
Lemma product_map {A B} (f : A -> B) l n : product (repeat (map f l) n) = map (map f) (product (repeat l n)).
Proof.
  induction n as [|n IH]; [reflexivity|]. cbn [repeat product]. rewrite IH. rewrite flat_map_concat_map, map_map, flat_map_concat_map, concat_map, map_map. f_equal. apply map_ext. intro a. rewrite !map_map. reflexivity.
Qed.
Lemma list_index {A} (l : list A) z : l = map (fun i => nth i l z) (seq 0 (length l)).
Proof. apply nth_error_ext. intro k. destruct (Nat.lt_ge_cases k (length l)) as [H|H]; [rewrite nth_error_map_seq by exact H; now apply nth_error_nth_lt|]. rewrite (proj2 (nth_error_None l k) H). symmetry. apply nth_error_None. now rewrite map_length, seq_length. Qed.
Lemma grid_indices (l : list R) n : product (repeat l n) = map (map (fun i => nth i l 0)) (indices (length l) n).
Proof. rewrite (list_index l 0) at 1. apply product_map. Qed.
Lemma nodup_flat {A} (l : list A) (ls : list (list A)) : NoDup l -> NoDup ls -> NoDup (flat_map (fun x => map (cons x) ls) l).
Proof.
  intros H HS. induction H as [|a l Ha _ IH]; [constructor|]. cbn [flat_map]. apply nodup_app; [apply FinFun.Injective_map_NoDup; [intros u v E; congruence|exact HS]|exact IH|].
  intros y Hy Hy'. apply in_map_iff in Hy as (u & <- & _). apply in_flat_map in Hy' as (b & Hb & Hy'). apply in_map_iff in Hy' as (v & E & _). congruence.
Qed.
Lemma indices_nodup m n : NoDup (indices m n).
Proof. unfold indices. induction n as [|n IH]; [cbn; constructor; [intros []|constructor]|]. cbn [repeat product]. apply nodup_flat; [apply seq_NoDup|exact IH]. Qed.
Lemma indices_in m n x : In x (indices m n) <-> length x = n /\ forall k, (k < n)%nat -> (nth k x O < m)%nat.
Proof.
  unfold indices. rewrite in_product. revert x; induction n as [|n IH]; intro x; cbn [repeat].
  - split; [intro H; inversion H; subst; split; [reflexivity|intros; lia]|]. intros [H _]. destruct x; [constructor|discriminate].
  - split.
    + intro H. inversion H as [|a l y ys Ha Hy]; subst. apply IH in Hy as [H1 H2]. split; [cbn; lia|]. intros [|k] Hk; cbn [nth]; [apply in_seq in Ha; lia|apply H2; lia].
    + intros [H1 H2]. destruct x as [|a x]; [discriminate|]. constructor; [apply in_seq; pose proof (H2 O ltac:(lia)) as Q; cbn in Q; lia|]. apply IH. split; [cbn in H1; lia|]. intros k Hk. apply (H2 (S k)). lia.
Qed.
Lemma swap_twice {A} d e (l : list A) z : (d < length l)%nat -> (e < length l)%nat -> swap d e (swap d e l z) z = l.
Proof.
  intros Hd He. transitivity (map (fun i => nth i l z) (seq 0 (length l))); [|symmetry; apply list_index]. unfold swap at 1. rewrite swap_length. apply map_ext_in. intros k Hk. apply in_seq in Hk. rewrite swap_nth by (apply transpose_lt; lia). now rewrite transpose_twice.
Qed.
Lemma indices_swap d e m n : (d < n)%nat -> (e < n)%nat -> Permutation (map (fun x => swap d e x O) (indices m n)) (indices m n).
Proof.
  intros Hd He. assert (S : forall x, In x (indices m n) -> In (swap d e x O) (indices m n)).
  { intros x Hx. apply indices_in in Hx as [H1 H2]. apply indices_in. rewrite swap_length. split; [exact H1|]. intros k Hk. rewrite swap_nth by lia. apply H2. now apply transpose_lt. }
  apply NoDup_Permutation.
  - pose proof (indices_nodup m n) as ND. revert S. assert (G : forall l, NoDup l -> (forall x, In x l -> length x = n) -> NoDup (map (fun x => swap d e x O) l)).
    { induction 1 as [|a l Ha _ IH]; intro HL; [constructor|]. cbn [map]. constructor; [|apply IH; intros; apply HL; now right]. intro Q. apply in_map_iff in Q as (b & E & Hb). apply Ha. pose proof (HL a (or_introl eq_refl)) as La. pose proof (HL b (or_intror Hb)) as Lb. rewrite <- (swap_twice d e a O) by lia. rewrite <- E, swap_twice by lia. exact Hb. }
    intros _. apply G; [exact ND|]. intros x Hx. now apply indices_in in Hx as [H1 _].
  - apply indices_nodup.
  - intro x. rewrite in_map_iff. split; [intros (y & <- & Hy); now apply S|]. intro Hx. exists (swap d e x O). split; [|now apply S]. apply indices_in in Hx as [H1 _]. apply swap_twice; lia.
Qed.
Lemma map_swap {A B} (f : A -> B) d e l z y : (d < length l)%nat -> (e < length l)%nat -> map f (swap d e l z) = swap d e (map f l) y.
Proof.
  intros Hd He. unfold swap. rewrite map_map, map_length. apply map_ext_in. intros k Hk. apply in_seq in Hk. pose proof (transpose_lt d e k (length l) Hd He ltac:(lia)) as L. rewrite (nth_indep (map f l) y (f z)) by (rewrite map_length; exact L). now rewrite map_nth.
Qed.
Lemma swap_permutation {A} d e (l : list A) z : (d < length l)%nat -> (e < length l)%nat -> Permutation (swap d e l z) l.
Proof.
  intros Hd He. unfold swap. rewrite <- (map_map (transpose d e) (fun i => nth i l z)). transitivity (map (fun i => nth i l z) (seq 0 (length l))); [apply Permutation_map, transpose_seq; assumption|]. rewrite <- list_index. reflexivity.
Qed.
(** A rule whose points and weights follow the exchange. *)
Lemma symmetric_from_indices d e m n (P : list nat -> list R) (W : list nat -> R) : (d < n)%nat -> (e < n)%nat ->
  (forall x, length x = n -> P (swap d e x O) = swap d e (P x) 0) -> (forall x, In x (indices m n) -> W (swap d e x O) = W x) -> symmetric_rule d e (map P (indices m n)) (map W (indices m n)).
Proof.
  intros Hd He HP HW. unfold symmetric_rule. assert (C : forall (f : list nat -> list R) l, combine (map W l) (map f l) = map (fun x => (W x, f x)) l) by (intros f l; induction l as [|a l IH]; [reflexivity|]; cbn; now rewrite IH).
  rewrite map_map, !C. transitivity (map (fun x => (W x, P x)) (map (fun x => swap d e x O) (indices m n))); [|apply Permutation_map, indices_swap; assumption].
  rewrite map_map. apply Permutation_refl'. apply map_ext_in. intros x Hx. pose proof (proj1 (indices_in m n x) Hx) as [HL _]. now rewrite HP, HW.
Qed.

(** ** Gauss-Hermite quadrature with uncorrelated latent variables *)
Lemma chol_identity n s L : (forall i j, (j < n)%nat -> (j <= i < n)%nat -> s i j = if (i =? j)%nat then 1 else 0) -> chol n s = Some L -> forall i k, (i < n)%nat -> L i k = if (i =? k)%nat then 1 else 0.
Proof.
  intros HS HC. destruct (chol_inv n s L HC) as (HZ & HL & HD & HI).
  assert (G : forall k, (k < n)%nat -> forall i, (i < n)%nat -> L i k = if (i =? k)%nat then 1 else 0).
  { induction k as [k IH] using (well_founded_induction Wf_nat.lt_wf). intros Hk. assert (K : L k k = 1).
    { pose proof (HI k k Hk (Nat.le_refl k)) as Q. cbn [sumn] in Q. rewrite (sumn_ext k _ (fun _ => 0)), sumn_0, HS, Nat.eqb_refl in Q; [|lia|lia|]. 2:{ intros a Ha. rewrite (IH a Ha ltac:(lia) k Hk). destruct (Nat.eqb_spec k a); [lia|ring]. } pose proof (HD k Hk). nra. }
    intros i Hi. destruct (Nat.eqb_spec i k) as [->|N]; [exact K|]. destruct (Nat.lt_ge_cases i k) as [Q|Q]; [now apply HL|].
    pose proof (HI k i Hk Q) as E. cbn [sumn] in E. rewrite (sumn_ext k _ (fun _ => 0)), sumn_0, HS, K in E; [|lia|lia|]. 2:{ intros a Ha. rewrite (IH a Ha ltac:(lia) k Hk). destruct (Nat.eqb_spec k a); [lia|ring]. } destruct (Nat.eqb_spec i k); [contradiction|]. lra. }
  intros i k Hi. destruct (Nat.lt_ge_cases k n) as [Hk|Hk]; [now apply G|]. rewrite HZ by exact Hk. destruct (Nat.eqb_spec i k); [lia|reflexivity].
Qed.
Lemma identity_at n i j : (i < n)%nat -> (j < n)%nat -> nth j (nth i (identity n) []) 0 = if (i =? j)%nat then 1 else 0.
Proof.
  intros Hi Hj. unfold identity. rewrite (nth_map_seq (fun i => map (fun j => if (i =? j)%nat then 1 else 0) (seq 0 n)) n i []) by exact Hi. exact (nth_map_seq (fun j => if (i =? j)%nat then 1 else 0) n j 0 Hj).
Qed.
Lemma gauss_hermite_symmetric d e n nodes ws rule : (d < n)%nat -> (e < n)%nat -> length ws = length nodes -> gauss_hermite nodes ws (repeat 0 n) (Wide n (identity n)) = Ok rule -> symmetric_rule d e (fst rule) (snd rule).
Proof.
  intros Hd He HL H. unfold gauss_hermite in H. cbn [w_rows w_cols] in H. rewrite repeat_length in H. destruct (length (identity n) =? n)%nat; [|discriminate]. destruct (chol n (at_ (Wide n (identity n)))) as [L|] eqn:EC; [|discriminate]. rewrite Nat.eqb_refl in H. injection H as <-. cbn [fst snd].
  assert (E : forall i k, (i < n)%nat -> L i k = if (i =? k)%nat then 1 else 0) by (apply (chol_identity n (at_ (Wide n (identity n)))); [|exact EC]; intros i j Hj Hi; unfold at_; cbn [w_rows]; apply identity_at; lia).
  rewrite (grid_indices nodes n), (grid_indices ws n), HL, !map_map. apply symmetric_from_indices; [exact Hd|exact He| |].
  - intros x Hx. assert (P : forall y, length y = n -> map (fun i => sqrt 2 * sumn n (fun k => L i k * nth k (map (fun j => nth j nodes 0) y) 0) + nth i (repeat 0 n) 0) (seq 0 n) = map (fun j => sqrt 2 * nth j nodes 0) y).
    { intros y Hy. transitivity (map (fun j => sqrt 2 * nth j nodes 0) (map (fun i => nth i y O) (seq 0 (length y)))); [|now rewrite <- list_index]. rewrite map_map, Hy. apply map_ext_in. intros i Hi. apply in_seq in Hi. rewrite (sumn_single n i (fun k => L i k * nth k (map (fun j => nth j nodes 0) y) 0)); [|lia|intros k Hk N; rewrite E by lia; destruct (Nat.eqb_spec i k); [congruence|ring]]. rewrite E, Nat.eqb_refl by lia. rewrite nth_repeat. rewrite (nth_indep _ 0 (nth O nodes 0)) by (rewrite map_length; lia). rewrite (map_nth (fun j => nth j nodes 0)). ring. }
    rewrite !P by (rewrite ?swap_length; exact Hx). apply map_swap; lia.
  - intros x Hx. pose proof (proj1 (indices_in _ _ x) Hx) as [Lx _]. f_equal. rewrite (map_swap (fun i => nth i ws 0) d e x O 0) by lia. assert (RP : forall l, fold_right Rmult 1 l = rprod l) by (induction l as [|a l IH]; [reflexivity|cbn; now rewrite IH]). rewrite !RP. apply rprod_permutation, swap_permutation; rewrite map_length; lia.
Qed.

(** ** The default rule: the normal density of latent variables with an exchangeable covariance *)
Lemma lower_injective n L (u v : nat -> R) : lower L -> pos_diag n L -> (forall i, (i < n)%nat -> sumn n (fun k => L i k * u k) = sumn n (fun k => L i k * v k)) -> forall i, (i < n)%nat -> u i = v i.
Proof.
  intros HL HD H. induction i as [i IH] using (well_founded_induction Wf_nat.lt_wf). intro Hi. pose proof (H i Hi) as E. rewrite !(sumn_truncate (S i) n) in E by (try lia; intros k Hk; rewrite (HL i k) by lia; ring). cbn [sumn] in E.
  rewrite (sumn_ext i (fun k => L i k * u k) (fun k => L i k * v k)) in E by (intros k Hk; rewrite (IH k Hk) by lia; reflexivity). pose proof (HD i Hi). apply (Rmult_eq_reg_l (L i i)); lra.
Qed.
(** The squared length of the whitened vector is x . y with S y = x. *)
Lemma whitened n s L x y : (forall i j, (i < n)%nat -> (j < n)%nat -> s i j = s j i) -> chol n s = Some L -> (forall i, (i < n)%nat -> sumn n (fun j => s i j * y j) = x i) ->
  sumn n (fun i => forward_solve n L x i ^ 2) = sumn n (fun i => x i * y i).
Proof.
  intros HS HC HY. destruct (chol_spec n s L HS HC) as (HL & HD & HF). set (z := forward_solve n L x). assert (HZ : forall i, (i < n)%nat -> sumn n (fun k => L i k * z k) = x i) by (apply solve_spec; assumption).
  assert (E : forall k, (k < n)%nat -> z k = sumn n (fun i => L i k * y i)).
  { apply (lower_injective n L); [exact HL|exact HD|]. intros i Hi. rewrite HZ by exact Hi. rewrite <- (HY i Hi). transitivity (sumn n (fun j => sumn n (fun k => L i k * L j k * y j))).
    - apply sumn_ext. intros j Hj. rewrite sumn_scal_r. now rewrite HF.
    - rewrite sumn_swap. apply sumn_ext. intros k Hk. rewrite <- sumn_scal. apply sumn_ext. intros j _. ring. }
  transitivity (sumn n (fun k => z k * sumn n (fun i => L i k * y i))); [apply sumn_ext; intros k Hk; rewrite <- E by exact Hk; ring|].
  transitivity (sumn n (fun i => sumn n (fun k => L i k * z k) * y i)); [|apply sumn_ext; intros i Hi; now rewrite HZ].
  transitivity (sumn n (fun k => sumn n (fun i => z k * (L i k * y i)))); [apply sumn_ext; intros k _; now rewrite sumn_scal|]. rewrite sumn_swap. apply sumn_ext. intros i _. rewrite <- sumn_scal_r. apply sumn_ext. intros k _. ring.
Qed.
Lemma solvable n s L x : (forall i j, (i < n)%nat -> (j < n)%nat -> s i j = s j i) -> chol n s = Some L -> exists y, forall i, (i < n)%nat -> sumn n (fun j => s i j * y j) = x i.
Proof.
  intros HS HC. destruct (chol_spec n s L HS HC) as (HL & HD & HF). set (z := forward_solve n L x). assert (HZ : forall i, (i < n)%nat -> sumn n (fun k => L i k * z k) = x i) by (apply solve_spec; assumption).
  destruct (back_solve n L HL HD z) as (y & Hy & _). exists y. intros i Hi. rewrite <- HZ by exact Hi. transitivity (sumn n (fun j => sumn n (fun k => L i k * L j k * y j))).
  - apply sumn_ext. intros j Hj. rewrite sumn_scal_r. now rewrite HF.
  - rewrite sumn_swap. apply sumn_ext. intros k Hk. rewrite <- (Hy k Hk), <- sumn_scal. apply sumn_ext. intros j _. ring.
Qed.
Lemma whitened_swap d e n s L x x' : (d < n)%nat -> (e < n)%nat -> (forall i j, (i < n)%nat -> (j < n)%nat -> s i j = s j i) -> (forall i j, (i < n)%nat -> (j < n)%nat -> s (transpose d e i) (transpose d e j) = s i j) -> chol n s = Some L ->
  (forall i, (i < n)%nat -> x' i = x (transpose d e i)) -> sumn n (fun i => forward_solve n L x' i ^ 2) = sumn n (fun i => forward_solve n L x i ^ 2).
Proof.
  intros Hd He HS HX HC HE. destruct (solvable n s L x HS HC) as (y & Hy). rewrite (whitened n s L x y HS HC Hy). rewrite (whitened n s L x' (fun i => y (transpose d e i)) HS HC).
  - rewrite <- (sumn_transpose d e n (fun i => x i * y i) Hd He). apply sumn_ext. intros i Hi. now rewrite HE.
  - intros i Hi. rewrite HE by exact Hi. rewrite <- (Hy (transpose d e i)) by now apply transpose_lt. rewrite <- (sumn_transpose d e n (fun j => s (transpose d e i) j * y j) Hd He). apply sumn_ext. intros j Hj. now rewrite HX.
Qed.
Lemma mvn_swap d e n c f x : (d < n)%nat -> (e < n)%nat -> (forall i j, (i < n)%nat -> (j < n)%nat -> nth (transpose d e j) (nth (transpose d e i) c []) 0 = nth j (nth i c []) 0) ->
  length c = n -> Forall (fun r => length r = n) c -> mvn n (repeat (Some (Fin 0)) n) (map (map (fun x => Some (Fin x))) c) = Ok f -> length x = n -> f (swap d e x 0) = f x.
Proof.
  intros Hd He HX HL HR H Hx. unfold mvn in H. destruct (_ && symmetric n _)%bool eqn:EB; [|discriminate]. apply andb_prop in EB as [_ ES]. destruct (chol n _) as [L|] eqn:EC; [|discriminate]. injection H as <-. cbv zeta.
  set (s := entry (map (map (fun x => Some (Fin x))) c)) in *. assert (Es : forall i j, (i < n)%nat -> (j < n)%nat -> s i j = nth j (nth i c []) 0).
  { intros i j Hi Hj. unfold s, entry. rewrite (nth_indep _ [] (map (fun x => Some (Fin x)) [])) by (rewrite map_length; lia). rewrite (map_nth (map (fun x => Some (Fin x)))). rewrite Forall_forall in HR. pose proof (HR (nth i c []) (nth_In (n := i) c [] ltac:(lia))) as Lr. rewrite (nth_indep _ None (Some (Fin 0))) by (rewrite map_length; lia). now rewrite (map_nth (fun x => Some (Fin x))). }
  assert (SY : forall i j, (i < n)%nat -> (j < n)%nat -> s i j = s j i).
  { intros i j Hi Hj. unfold symmetric in ES. rewrite forallb_forall in ES. specialize (ES i ltac:(apply in_seq; lia)). rewrite forallb_forall in ES. specialize (ES j ltac:(apply in_seq; lia)). now destruct (Req_EM_T (s i j) (s j i)). }
  f_equal. f_equal. f_equal. f_equal. apply (whitened_swap d e n s L); try assumption.
  - intros i j Hi Hj. rewrite !Es by (try assumption; now apply transpose_lt). now apply HX.
  - intros i Hi. rewrite swap_nth by lia. assert (Z : forall k, (k < n)%nat -> fval (nth k (repeat (Some (Fin 0)) n) None) = 0) by (intros k Hk; rewrite (nth_indep _ None (Some (Fin 0))) by (rewrite repeat_length; exact Hk); now rewrite nth_repeat). rewrite !Z by (try assumption; now apply transpose_lt). reflexivity.
Qed.
Lemma quasi_mc_symmetric d e m n logpdf : (d < n)%nat -> (e < n)%nat -> (forall x, length x = n -> logpdf (swap d e x 0) = logpdf x) ->
  symmetric_rule d e (fst (mml_quasi_mc m n logpdf)) (map (fun t => exp (logpdf t)) (fst (mml_quasi_mc m n logpdf))).
Proof.
  intros Hd He H. unfold mml_quasi_mc. cbn [fst]. rewrite grid_indices, map_map. apply symmetric_from_indices; [exact Hd|exact He| |].
  - intros x Hx. apply map_swap; lia.
  - intros x Hx. pose proof (proj1 (indices_in _ _ x) Hx) as [Lx _]. f_equal. rewrite (map_swap _ d e x O 0) by lia. apply H. rewrite map_length. exact Lx.
Qed.
