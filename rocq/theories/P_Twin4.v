(** Lemmas: the marginal likelihood does not tell apart latent variables, or items, that are alike. *)
From Coq Require Import Permutation.
From Verif Require Import Base BaseFacts RBase RFacts M_Data M_CV M_Logit M_Lik M_Est M_Stat M_Train M_Mix M_Quad M_Adam P_Data P_Logit P_Logit3 P_Est1 P_Est2 P_Est3 P_Stat4 P_Sym1 P_Sym2 P_Sym3 P_Sym4 P_Twin1 P_Twin2 P_Twin3 S_Logit S_Lik S_Est S_Sym S_Twin.
Import List.
Local Open Scope R_scope.

Definition latent_pairs (x : irt) (d e u v : nat) : Prop := exists i, has_slope x i d /\ u = slope_at x i d /\ v = slope_at x i e.
Definition item_pairs (x : irt) (i j u v : nat) : Prop :=
  (exists d, has_slope x i d /\ u = slope_at x i d /\ v = slope_at x j d) \/
  (exists k, has_intercept x i k /\ u = intercept_at x i k /\ v = intercept_at x j k) \/
  (has_guessing x i /\ u = guessing_at x i /\ v = guessing_at x j).

Lemma parameters_len x : well_formed x -> (n_slopes x + n_intercepts x <= length (parameters x))%nat \/ ~ plain_model x.
Proof.
  intro W. destruct x as [m|m|m|m|m|m]; [left..|right; exact (fun H => H)|right; exact (fun H => H)]; cbn [parameters n_slopes n_intercepts relations]; rewrite ?app_length; [lia|destruct W as [W _]..].
  - destruct W as (_ & _ & W & _). lia.
  - destruct W as (_ & _ & W & _). lia.
  - destruct W as (_ & _ & _ & _ & W & _). lia.
Qed.
Lemma no_slope x p i d : ~ has_slope x i d -> plain_model x -> slope_of (with_parameters x p) i d = match x with Opl _ => 1 | _ => 0 end.
Proof.
  intros H HP. destruct x as [m|m|m|m|m|m]; cbn [has_slope relations plain_model with_parameters slope_of tpl_free thpl_free p_free] in *; try contradiction; try reflexivity; rewrite slope_place; match goal with |- (if ?c then _ else _) = _ => destruct c; [exfalso; now apply H|reflexivity] end.
Qed.
Lemma has_slope_dec x i d : has_slope x i d \/ ~ has_slope x i d.
Proof. destruct x; cbn [has_slope]; try tauto; match goal with |- ?b = true \/ _ => destruct b; [now left|right; discriminate] end. Qed.
Lemma same_columns_slope x d e i : same_columns x d e -> has_slope x i d <-> has_slope x i e.
Proof. intro H. specialize (H i). destruct x; cbn [has_slope]; try tauto; cbn [relations] in *; rewrite H; tauto. Qed.
Lemma latent_inside x d e u v : plain_model x -> well_formed x -> same_columns x d e -> latent_pairs x d e u v -> (u < length (parameters x))%nat /\ (v < length (parameters x))%nat.
Proof.
  intros HP W HC (i & H & -> & ->). pose proof (slope_at_lt x (parameters x) HP W eq_refl i d H). pose proof (slope_at_lt x (parameters x) HP W eq_refl i e (proj1 (same_columns_slope x d e i HC) H)). destruct (parameters_len x W) as [L|L]; [lia|contradiction].
Qed.
Lemma latent_alike x d e p i : plain_model x -> well_formed x -> same_columns x d e -> length p = length (parameters x) -> alike (latent_pairs x d e) p ->
  slope_of (with_parameters x p) i d = slope_of (with_parameters x p) i e.
Proof.
  intros HP W HC HL HA. destruct (has_slope_dec x i d) as [H|H].
  - rewrite !slope_read by (try assumption; now apply (same_columns_slope x d e i HC)). apply HA. exists i. repeat split. exact H.
  - rewrite !no_slope; try assumption; [reflexivity|]. intro Q. apply H. now apply (same_columns_slope x d e i HC).
Qed.
Lemma alike_latent x d e : plain_model x -> well_formed x -> same_columns x d e -> (forall i, slope_of x i d = slope_of x i e) -> alike (latent_pairs x d e) (parameters x).
Proof.
  intros HP W HC H u v (i & Hi & -> & ->). specialize (H i). rewrite <- (with_same x), (slope_read x (parameters x)), (slope_read x (parameters x)) in H; try assumption; try reflexivity; now apply (same_columns_slope x d e i HC).
Qed.
Lemma categories_with x p i : categories_of (with_parameters x p) i = categories_of x i.
Proof. destruct x; reflexivity. Qed.
Lemma plain_with x p : plain_model x -> plain_model (with_parameters x p).
Proof. destruct x; exact (fun H => H). Qed.

(** Changing the slope of an item on [d] or on [e]: the same model with the two exchanged. *)
Lemma latent_chances x d e p u v t th i k : slope_model x -> well_formed x -> same_columns x d e -> (d < latents x)%nat -> (e < latents x)%nat -> length p = length (parameters x) -> alike (latent_pairs x d e) p ->
  latent_pairs x d e u v -> length th = latents x ->
  chances (with_parameters x (upd u t p)) th i k = chances (with_parameters x (upd v t p)) (swap d e th 0) i k.
Proof.
  intros HS W HC Hd He HL HA (a & Ha & -> & ->) Ht. assert (HP : plain_model x) by (destruct x; cbn in HS |- *; tauto). assert (Ha' : has_slope x a e) by now apply (same_columns_slope x d e a HC).
  rewrite !chances_response, !response_with, !categories_with by now apply plain_with. pose proof (parameters_len x W) as [PL|PL]; [|contradiction].
  pose proof (slope_at_lt x (parameters x) HP W eq_refl a d Ha) as L1. pose proof (slope_at_lt x (parameters x) HP W eq_refl a e Ha') as L2. rewrite !guessing_keep by (try assumption; lia).
  rewrite (response_ext x _ _ (intercept_of (with_parameters x (upd (slope_at x a d) t p)) i) (intercept_of (with_parameters x (upd (slope_at x a e) t p)) i)).
  2:{ intro j. rewrite !intercept_keep by (try assumption; now left). reflexivity. }
  assert (E : eta_of (with_parameters x (upd (slope_at x a d) t p)) i th = eta_of (with_parameters x (upd (slope_at x a e) t p)) i (swap d e th 0)).
  2:{ now rewrite E. }
  assert (EO : forall q, eta_of (with_parameters x q) i = predictor (latents x) (slope_of (with_parameters x q) i)) by (intro q; destruct x; cbn in HS |- *; tauto || reflexivity). rewrite !EO. apply predictor_swap; try assumption. intro c.
  rewrite !slope_set by assumption. pose proof (latent_alike x d e p i HP W HC HL HA) as A. unfold transpose.
  destruct (Nat.eqb_spec i a) as [->|N]; cbn [andb].
  - destruct (Nat.eqb_spec c d) as [->|N1]; [now rewrite Nat.eqb_refl|]. destruct (Nat.eqb_spec c e) as [->|N2]; [destruct (Nat.eqb_spec d e); [congruence|now symmetry]|]. destruct (Nat.eqb_spec c e); [congruence|reflexivity].
  - destruct (Nat.eqb_spec c d) as [->|N1]; [exact A|]. destruct (Nat.eqb_spec c e) as [->|N2]; [now symmetry|reflexivity].
Qed.

(** Items. *)
Lemma twins_slope x i j d : twins x i j -> has_slope x i d <-> has_slope x j d.
Proof. intros [H _]. destruct x; cbn [has_slope]; try tauto; cbn [relations] in *; rewrite H; tauto. Qed.
Lemma twins_intercept x i j k : twins x i j -> (i < length (cats_of x))%nat -> (j < length (cats_of x))%nat -> has_intercept x i k <-> has_intercept x j k.
Proof. intros [_ H] Hi Hj. destruct x; cbn [has_intercept]; try tauto. cbn [categories_of] in H. rewrite H. tauto. Qed.
Lemma twins_guessing x i j : (i < length (cats_of x))%nat -> (j < length (cats_of x))%nat -> has_guessing x i <-> has_guessing x j.
Proof. intros Hi Hj. destruct x; cbn [has_guessing]; tauto. Qed.
Section Items.
Variables (x : irt) (i j : nat).
Hypothesis plain : plain_model x.
Hypothesis wf : well_formed x.
Hypothesis tw : twins x i j.
Hypothesis Hi : (i < length (cats_of x))%nat.
Hypothesis Hj : (j < length (cats_of x))%nat.

Lemma item_inside u v : item_pairs x i j u v -> (u < length (parameters x))%nat /\ (v < length (parameters x))%nat.
Proof.
  destruct (parameters_len x wf) as [L|L]; [|contradiction]. intros [(d & H & -> & ->)|[(k & H & -> & ->)|(H & -> & ->)]].
  - pose proof (slope_at_lt x (parameters x) plain wf eq_refl i d H). pose proof (slope_at_lt x (parameters x) plain wf eq_refl j d (proj1 (twins_slope x i j d tw) H)). lia.
  - pose proof (intercept_at_in x (parameters x) plain wf eq_refl i k H). pose proof (intercept_at_in x (parameters x) plain wf eq_refl j k (proj1 (twins_intercept x i j k tw Hi Hj) H)). lia.
  - pose proof (guessing_at_in x (parameters x) plain wf eq_refl i H). pose proof (guessing_at_in x (parameters x) plain wf eq_refl j (proj1 (twins_guessing x i j Hi Hj) H)). lia.
Qed.
Lemma has_intercept_dec a k : (a < length (cats_of x))%nat -> has_intercept x a (match x with Gpc _ => k | _ => O end) \/ forall p, intercept_of (with_parameters x p) a k = 0.
Proof.
  intro Ha. destruct x as [m|m|m|m|m|m]; cbn [has_intercept plain_model] in *; try contradiction; try (left; split; [exact Ha|reflexivity]).
  destruct (Nat.le_gt_cases 1 k); [destruct (Nat.lt_ge_cases k (nth a (p_cats m) O)); [left; lia|]|]; right; intro p; cbn [with_parameters intercept_of p_cats p_b]; unfold intercept; destruct (Nat.leb_spec 1 k); destruct (Nat.ltb_spec k (nth a (p_cats m) O)); cbn [andb]; try reflexivity; lia.
Qed.
Lemma item_alike p : length p = length (parameters x) -> alike (item_pairs x i j) p -> same_item (with_parameters x p) i j.
Proof.
  intros HL HA. split; [|split].
  - intro d. destruct (has_slope_dec x i d) as [H|H].
    + rewrite !slope_read by (try assumption; now apply (twins_slope x i j d tw)). apply HA. left. exists d. repeat split. exact H.
    + rewrite !no_slope; try assumption; [reflexivity|]. intro Q. apply H. now apply (twins_slope x i j d tw).
  - intro k. destruct (has_intercept_dec i k Hi) as [H|H].
    + set (k0 := match x with Gpc _ => k | _ => O end) in *. assert (E : forall a, intercept_of (with_parameters x p) a k = intercept_of (with_parameters x p) a k0) by (intro a; unfold k0; destruct x; try contradiction; reflexivity). rewrite !E.
      rewrite !intercept_read by (try assumption; now apply (twins_intercept x i j k0 tw Hi Hj)). apply HA. right; left. exists k0. repeat split. exact H.
    + destruct (has_intercept_dec j k Hj) as [H'|H']; [|now rewrite H, H']. apply (twins_intercept x i j _ tw Hi Hj) in H'.
      set (k0 := match x with Gpc _ => k | _ => O end) in *. assert (E : forall a, intercept_of (with_parameters x p) a k = intercept_of (with_parameters x p) a k0) by (intro a; unfold k0; destruct x; try contradiction; reflexivity). rewrite !E.
      rewrite !intercept_read by (try assumption; now apply (twins_intercept x i j k0 tw Hi Hj)). apply HA. right; left. exists k0. repeat split. exact H'.
  - destruct x as [m|m|m|m|m|m] eqn:EX; try reflexivity; try contradiction. rewrite <- EX in *. assert (H : has_guessing x i) by (rewrite EX in *; exact Hi). rewrite !guessing_read by (try assumption; now apply (twins_guessing x i j Hi Hj)). apply HA. right; right. repeat split. exact H.
Qed.
Lemma alike_item : same_item x i j -> alike (item_pairs x i j) (parameters x).
Proof.
  intros (H1 & H2 & H3) u v HP. rewrite <- (with_same x) in H1, H2, H3. destruct HP as [(d & H & -> & ->)|[(k & H & -> & ->)|(H & -> & ->)]].
  - specialize (H1 d). rewrite !slope_read in H1; try assumption; try reflexivity. now apply (twins_slope x i j d tw).
  - specialize (H2 k). rewrite !intercept_read in H2; try assumption; try reflexivity. now apply (twins_intercept x i j k tw Hi Hj).
  - rewrite !guessing_read in H3; try assumption; try reflexivity. now apply (twins_guessing x i j Hi Hj).
Qed.
Lemma transposed_same p a : length p = length (parameters x) -> alike (item_pairs x i j) p ->
  (forall d, slope_of (with_parameters x p) a d = slope_of (with_parameters x p) (transpose i j a) d) /\ (forall k, intercept_of (with_parameters x p) a k = intercept_of (with_parameters x p) (transpose i j a) k) /\
  guessing_of (with_parameters x p) a = guessing_of (with_parameters x p) (transpose i j a).
Proof.
  intros HL HA. destruct (item_alike p HL HA) as (A1 & A2 & A3). unfold transpose. destruct (Nat.eqb_spec a i) as [->|]; [auto|]. destruct (Nat.eqb_spec a j) as [->|]; [|auto]. auto using eq_sym.
Qed.
Lemma transposed_set {T} (f : nat -> T) (t : T) a (b : bool) : f a = f (transpose i j a) ->
  (if ((a =? i)%nat && b)%bool then t else f a) = (if ((transpose i j a =? j)%nat && b)%bool then t else f (transpose i j a)).
Proof.
  intro H. unfold transpose in *. destruct (Nat.eqb_spec a i) as [->|N]; [rewrite Nat.eqb_refl; destruct b; [reflexivity|exact H]|]. destruct (Nat.eqb_spec a j) as [->|N']; [destruct (Nat.eqb_spec i j); [congruence|exact H]|]. destruct (Nat.eqb_spec a j); [congruence|exact H].
Qed.
Lemma item_chances p u v t th a k : length p = length (parameters x) -> alike (item_pairs x i j) p -> item_pairs x i j u v ->
  chances (with_parameters x (upd u t p)) th a k = chances (with_parameters x (upd v t p)) th (transpose i j a) k.
Proof.
  intros HL HA HP. rewrite !chances_response, !response_with, !categories_with by now apply plain_with. destruct (transposed_same p a HL HA) as (A1 & A2 & A3).
  assert (EC : categories_of x a = categories_of x (transpose i j a)) by (destruct tw as [_ C]; unfold transpose; destruct (Nat.eqb_spec a i) as [->|]; [exact C|]; destruct (Nat.eqb_spec a j) as [->|]; [now symmetry|reflexivity]). rewrite EC.
  assert (G : (forall d, slope_of (with_parameters x (upd u t p)) a d = slope_of (with_parameters x (upd v t p)) (transpose i j a) d) /\
    (forall k, intercept_of (with_parameters x (upd u t p)) a k = intercept_of (with_parameters x (upd v t p)) (transpose i j a) k) /\
    guessing_of (with_parameters x (upd u t p)) a = guessing_of (with_parameters x (upd v t p)) (transpose i j a)).
  { destruct HP as [(d & H & -> & ->)|[(q & H & -> & ->)|(H & -> & ->)]].
    - pose proof (proj1 (twins_slope x i j d tw) H) as H'. pose proof (slope_at_lt x (parameters x) plain wf eq_refl i d H). pose proof (slope_at_lt x (parameters x) plain wf eq_refl j d H'). split; [|split].
      + intro c. rewrite !slope_set by assumption. now apply (transposed_set (fun a => slope_of (with_parameters x p) a c)).
      + intro c. rewrite !intercept_keep by (try assumption; now left). apply A2.
      + rewrite !guessing_keep by (try assumption; lia). apply A3.
    - pose proof (proj1 (twins_intercept x i j q tw Hi Hj) H) as H'. pose proof (intercept_at_in x (parameters x) plain wf eq_refl i q H). pose proof (intercept_at_in x (parameters x) plain wf eq_refl j q H'). split; [|split].
      + intro c. rewrite !slope_keep by (try assumption; lia). apply A1.
      + intro c. rewrite !intercept_set by assumption. now apply (transposed_set (fun a => intercept_of (with_parameters x p) a c)).
      + rewrite !guessing_keep by (try assumption; lia). apply A3.
    - pose proof (proj1 (twins_guessing x i j Hi Hj) H) as H'. pose proof (guessing_at_in x p plain wf HL i H). pose proof (guessing_at_in x p plain wf HL j H'). split; [|split].
      + intro c. rewrite !slope_keep by (try assumption; lia). apply A1.
      + intro c. rewrite !intercept_keep by (try assumption; right; lia). apply A2.
      + rewrite !guessing_set by assumption. pose proof (transposed_set (fun a => guessing_of (with_parameters x p) a) t a true A3) as Q. now rewrite !andb_true_r in Q. }
  destruct G as (G1 & G2 & G3). rewrite G3, (response_ext x _ _ _ _ _ _ G2). f_equal. assert (EO : forall q a, eta_of (with_parameters x q) a th = match x with Opl _ => nth 0 th 0 | _ => predictor (latents x) (slope_of (with_parameters x q) a) th end) by (intros q b; destruct x; reflexivity). rewrite !EO.
  destruct x; try reflexivity; unfold predictor; apply sumn_ext; intros c _; now rewrite G1.
Qed.
End Items.
