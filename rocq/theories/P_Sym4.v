(** The default grid and the standard normal density are symmetric. *)
From Verif Require Import Base BaseFacts RBase RFacts M_Data M_CV M_Logit M_Lik M_Est M_Opt P_Data P_Logit P_Lik5 P_Est1 P_Est2 P_Est3 P_Stat4 P_Sym1 P_Sym2 P_Sym3 S_Logit S_Lik S_Est S_Sym.
Import List.
From Coq Require Import Permutation.
Local Open Scope R_scope.

Lemma signs_nth s d : signs s -> nth d s 1 = 1 \/ nth d s 1 = -1.
Proof.
  intro H. destruct (Nat.lt_ge_cases d (length s)) as [Hd|Hd]; [|left; now apply nth_overflow]. unfold signs in H. rewrite Forall_forall in H. apply H. now apply nth_In.
Qed.
Lemma signs_tl s : signs s -> signs (tl s).
Proof. intro H. destruct s; [exact H|]. now inversion H. Qed.
Lemma nth_tl {A} d (s : list A) x : nth d (tl s) x = nth (S d) s x.
Proof. destruct s; [destruct d; reflexivity|reflexivity]. Qed.
Lemma standard_cons s x t : standard s [] (x :: t) = x / nth 0 s 1 :: standard (tl s) [] t.
Proof.
  unfold standard. cbn [length seq map]. f_equal; [cbn [nth]; f_equal; ring|]. rewrite <- seq_shift, map_map. apply map_ext. intro d. rewrite nth_tl. cbn [nth]. f_equal. destruct d; reflexivity.
Qed.
Lemma rev_seq n : rev (seq 0 n) = map (fun i => (n - 1 - i)%nat) (seq 0 n).
Proof.
  induction n as [|n IH]; [reflexivity|]. rewrite seq_S at 1. rewrite rev_app_distr, IH. cbn [rev app seq map]. f_equal; [lia|]. rewrite <- seq_shift, map_map. apply map_ext_in. intros i Hi. apply in_seq in Hi. lia.
Qed.
Lemma linspace_sign n u : (2 <= n)%nat -> u = 1 \/ u = -1 -> Permutation (map (fun x => x / u) (linspace (-3) 3 n)) (linspace (-3) 3 n).
Proof.
  intros Hn [-> | ->].
  - rewrite (map_ext _ (fun x => x)) by (intro; field). rewrite map_id. reflexivity.
  - unfold linspace. rewrite map_map. apply Permutation_trans with (map (fun i => -3 + INR i * ((3 - -3) / INR (n - 1))) (rev (seq 0 n))); [|apply Permutation_map, Permutation_sym, Permutation_rev].
    rewrite rev_seq, map_map. erewrite map_ext_in; [apply Permutation_refl|]. intros i Hi. apply in_seq in Hi. cbv beta. rewrite (minus_INR (n - 1) i) by lia. assert (INR (n - 1) <> 0) by (apply not_0_INR; lia). field. exact H.
Qed.
Lemma flat_map_permutation {A B} (f g : A -> list B) l l' : Permutation l l' -> (forall x, Permutation (f x) (g x)) -> Permutation (flat_map f l) (flat_map g l').
Proof.
  intros HP H. apply Permutation_trans with (flat_map g l); [|now apply Permutation_flat_map]. clear HP. induction l as [|a l IH]; [constructor|]. cbn [flat_map]. now apply Permutation_app.
Qed.
Lemma grid_sign n lv s : (2 <= n)%nat -> signs s -> Permutation (map (standard s []) (product (repeat (linspace (-3) 3 n) lv))) (product (repeat (linspace (-3) 3 n) lv)).
Proof.
  intros Hn. revert s; induction lv as [|lv IH]; intros s Hs; [reflexivity|]. cbn [repeat product].
  assert (E : forall (ls : list R) P, map (standard s []) (flat_map (fun x => map (cons x) P) ls) = flat_map (fun y => map (cons y) (map (standard (tl s) []) P)) (map (fun x => x / nth 0 s 1) ls)).
  { intros ls P. induction ls as [|x ls IHl]; [reflexivity|]. cbn [flat_map map]. rewrite map_app, IHl. f_equal. rewrite !map_map. apply map_ext. intro t. apply standard_cons. }
  rewrite E. apply flat_map_permutation; [apply linspace_sign; [exact Hn|now apply signs_nth]|]. intro x. apply Permutation_map. apply IH. now apply signs_tl.
Qed.
Lemma normal_sign mu u x : mu = 0 -> u = 1 \/ u = -1 -> normal_pdf mu 1 (x / u) = normal_pdf mu 1 x.
Proof. intros -> Hu. unfold normal_pdf. do 2 f_equal. f_equal. destruct Hu as [-> | ->]; field. Qed.
Lemma density_sign lv s t : signs s -> length t = lv -> diag_normal_pdf (repeat 0 lv) (repeat 1 lv) (standard s [] t) = diag_normal_pdf (repeat 0 lv) (repeat 1 lv) t.
Proof.
  intros Hs <-. revert s Hs; induction t as [|x t IH]; intros s Hs; [reflexivity|]. rewrite standard_cons. unfold diag_normal_pdf in *. cbn [length repeat combine zip_with rprod fst snd]. rewrite IH by (now apply signs_tl). f_equal. apply normal_sign; [reflexivity|now apply signs_nth].
Qed.
Lemma zip_combine (f : R -> list R -> R) ws ps : zip_with f ws ps = map (fun wp => f (fst wp) (snd wp)) (combine ws ps).
Proof. revert ps; induction ws as [|w ws IH]; intros [|q ps]; try reflexivity. cbn [zip_with combine map fst snd]. now rewrite IH. Qed.
Lemma combine_map_r {A B C} (f : B -> C) (l : list A) (r : list B) : combine l (map f r) = map (fun ab => (fst ab, f (snd ab))) (combine l r).
Proof. revert r; induction l as [|a l IH]; intros [|b r]; try reflexivity. cbn [map combine fst snd]. now rewrite IH. Qed.
Lemma combine_map_self {A B} (f : A -> B) (l : list A) : combine (map f l) l = map (fun t => (f t, t)) l.
Proof. induction l as [|a l IH]; [reflexivity|]. cbn [map combine]. now rewrite IH. Qed.
(** A symmetric rule gives the reflected model the same marginal likelihood. *)
Lemma marginal_sign s x points weights row : well_formed x -> units s x -> Forall (fun t => length t = latents x) points -> legal_row (cats_of x) row ->
  Permutation (combine weights (map (standard s []) points)) (combine weights points) ->
  marginal_likelihood (chances (rescale s [] x)) points weights row = marginal_likelihood (chances x) points weights row.
Proof.
  intros H HU HF HR HP. transitivity (marginal_likelihood (chances (rescale s [] x)) (map (standard s []) points) weights row).
  - unfold marginal_likelihood. rewrite !zip_combine. apply rsum_permutation. apply Permutation_map. now apply Permutation_sym.
  - apply marginal_ext; [apply map_length|]. intros q Hq. rewrite (nth_indep _ [] (standard s [] [])) by (rewrite map_length; exact Hq). rewrite map_nth. apply rescaled_likelihood; auto. rewrite Forall_forall in HF. apply HF. now apply nth_In.
Qed.
Lemma rsum_map_sign s (F F' : list R -> R) grid : Permutation (map (standard s []) grid) grid -> (forall t, In t grid -> F' (standard s [] t) = F t) -> rsum (map F' grid) = rsum (map F grid).
Proof. intros HP H. rewrite <- (rsum_permutation _ _ (Permutation_map F' HP)), map_map. f_equal. now apply map_ext_in. Qed.
Lemma rsum_scaled {A} (f : A -> R) u l : rsum (map (fun t => f t / u) l) = rsum (map f l) / u.
Proof. induction l as [|a l IH]; [unfold rsum; cbn; unfold Rdiv; ring|]. cbn [map]. change (f a / u + rsum (map (fun t => f t / u) l) = (f a + rsum (map f l)) / u). rewrite IH. unfold Rdiv. ring. Qed.
Lemma posterior_sign s x (prior : list R -> R) grid row d : well_formed x -> units s x -> Forall (fun t => length t = latents x) grid -> legal_row (cats_of x) row ->
  Permutation (map (standard s []) grid) grid -> (forall t, length t = latents x -> prior (standard s [] t) = prior t) -> (d < latents x)%nat ->
  posterior_mean (chances (rescale s [] x)) grid prior row d = posterior_mean (chances x) grid prior row d / nth d s 1.
Proof.
  intros H HU HF HR HP HQ Hd. unfold posterior_mean. rewrite Forall_forall in HF.
  rewrite (rsum_map_sign s (fun t => prior t * likelihood (chances x) t row) (fun t => prior t * likelihood (chances (rescale s [] x)) t row) grid HP) by (intros t Ht; rewrite HQ, rescaled_likelihood by auto; reflexivity).
  rewrite (rsum_map_sign s (fun t => nth d t 0 * (prior t * likelihood (chances x) t row) / nth d s 1) (fun t => nth d t 0 * (prior t * likelihood (chances (rescale s [] x)) t row)) grid HP).
  - rewrite rsum_scaled. unfold Rdiv. ring.
  - intros t Ht. rewrite HQ, rescaled_likelihood by auto. rewrite standard_nth by (rewrite HF; auto). replace (nth d (@nil R) 0) with 0 by (destruct d; reflexivity). unfold Rdiv. ring.
Qed.
