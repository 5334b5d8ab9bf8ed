(** Lemmas: entropies. *)
From Coq Require Import Permutation.
From Verif Require Import Base BaseFacts RBase RFacts M_Logit M_Mono M_Lik M_Est M_Stat S_Stat P_Stat1 P_Stat2.
Local Open Scope R_scope.

Lemma ln_le_sub1 x : 0 < x -> ln x <= x - 1.
Proof.
  intros H. assert (E : x = exp (ln x)) by (symmetry; apply exp_ln; exact H).
  destruct (Req_EM_T (ln x) 0) as [Z|Z]; [rewrite Z in *; rewrite exp_0 in E; lra|]. pose proof (exp_ineq1 (ln x) Z). lra.
Qed.
Lemma ln_quot x y : 0 < x -> 0 < y -> ln (x / y) = ln x - ln y.
Proof. intros. unfold Rdiv. rewrite ln_mult, ln_Rinv by (assumption || (apply Rinv_0_lt_compat; assumption)). ring. Qed.
Lemma eps_pos : 0 < entropy_eps.
Proof. unfold entropy_eps. lra. Qed.
Definition surp (b x : R) : R := - ln (x + entropy_eps) / ln b.
Lemma surprisal_nonneg b x : 0 <= x -> surprisal b x = Some (Fin (surp b x)).
Proof.
  intros H. unfold surprisal, surp, flog. pose proof eps_pos. destruct (Rlt_dec 0 (x + entropy_eps)); [reflexivity|lra].
Qed.
Definition hent (b : R) (p : list R) : R := rsum (map (fun x => x * surp b x) p).
Lemma entropy_terms b p : Forall (fun x => 0 <= x) p -> fsum (map (fun x => fmul (Some (Fin x)) (surprisal b x)) p) = Some (Fin (hent b p)).
Proof.
  induction 1 as [|x p Hx _ IH]; [reflexivity|]. cbn [map]. unfold fsum in *. cbn [fold_right]. rewrite IH. rewrite surprisal_nonneg by exact Hx.
  cbn [fmul fadd]. reflexivity.
Qed.
Lemma close_to_one_1 s : s = 1 -> close_to_one s = true.
Proof. intros ->. unfold close_to_one. destruct (Rle_dec _ _) as [|N]; [reflexivity|]. exfalso. apply N. rewrite Rminus_diag_eq, Rabs_R0 by reflexivity. lra. Qed.
Lemma entropy_value b p : Forall (fun x => 0 <= x) p -> rsum p = 1 -> entropy b p = Ok (Some (Fin (hent b p))).
Proof. intros H S. unfold entropy. rewrite close_to_one_1 by exact S. rewrite entropy_terms by exact H. reflexivity. Qed.
Lemma entropy_refuse b p : / 100000000 + / 100000 < Rabs (rsum p - 1) -> entropy b p = Err RuntimeError.
Proof. intros H. unfold entropy, close_to_one. destruct (Rle_dec _ _); [lra|reflexivity]. Qed.
Lemma entropy_accept b p : Rabs (rsum p - 1) <= / 100000000 + / 100000 -> exists v, entropy b p = Ok v.
Proof. intros H. unfold entropy, close_to_one. destruct (Rle_dec _ _); [eauto|lra]. Qed.

Lemma rsum_le_map {A} (f g : A -> R) l : (forall x, In x l -> f x <= g x) -> rsum (map f l) <= rsum (map g l).
Proof.
  induction l as [|x l IH]; intros H; [cbn; lra|]. cbn [map]. match goal with |- rsum (?a :: ?b) <= rsum (?c :: ?d) => change (a + rsum b <= c + rsum d) end.
  apply Rplus_le_compat; [apply H; left; reflexivity|apply IH; intros; apply H; right; assumption].
Qed.
Lemma rsum_map_plus {A} (f g : A -> R) l : rsum (map (fun x => f x + g x) l) = rsum (map f l) + rsum (map g l).
Proof. induction l as [|x l IH]; [cbn; lra|]. cbn. unfold rsum in *. cbn. rewrite IH. ring. Qed.
Lemma rsum_map_const {A} (l : list A) c : rsum (map (fun _ => c) l) = INR (length l) * c.
Proof. induction l as [|x l IH]; [cbn; lra|]. cbn [map length]. rewrite S_INR. change (rsum (c :: map (fun _ => c) l)) with (c + rsum (map (fun _ : A => c) l)). rewrite IH. ring. Qed.
Lemma entry_le_one p x : Forall (fun x => 0 <= x) p -> rsum p = 1 -> In x p -> x <= 1.
Proof.
  intros H S I. rewrite <- S. clear S. induction H as [|y p Hy Hp IH]; [destruct I|]. change (rsum (y :: p)) with (y + rsum p).
  assert (0 <= rsum p). { clear -Hp. induction Hp as [|z p Hz _ IH]; [cbn; lra|]. change (rsum (z :: p)) with (z + rsum p). lra. }
  destruct I as [->|I]; [lra|]. specialize (IH I). lra.
Qed.
Lemma ln_base_pos b : 1 < b -> 0 < ln b.
Proof. intros H. rewrite <- ln_1. apply ln_increasing; lra. Qed.

(** Between the Shannon entropy and the Shannon entropy minus K eps / ln b. *)
Lemma hent_le_shannon b p : 1 < b -> Forall (fun x => 0 <= x) p -> hent b p <= shannon b p.
Proof.
  intros Hb H. pose proof (ln_base_pos b Hb) as L. pose proof eps_pos as E. apply rsum_le_map. intros x I. rewrite Forall_forall in H. specialize (H x I).
  destruct (Req_EM_T x 0) as [->|N]; [lra|]. unfold surp. assert (ln x <= ln (x + entropy_eps)) by (left; apply ln_increasing; lra).
  unfold Rdiv. rewrite <- !Rmult_assoc. apply Rmult_le_compat_r; [left; apply Rinv_0_lt_compat; exact L|]. nra.
Qed.
Lemma shannon_le_hent b p : 1 < b -> Forall (fun x => 0 <= x) p -> shannon b p <= hent b p + INR (length p) * (entropy_eps / ln b).
Proof.
  intros Hb H. pose proof (ln_base_pos b Hb) as L. pose proof eps_pos as E. unfold hent. rewrite <- rsum_map_const, <- rsum_map_plus. apply rsum_le_map.
  intros x I. rewrite Forall_forall in H. specialize (H x I).
  destruct (Req_EM_T x 0) as [->|N].
  - rewrite Rmult_0_l, Rplus_0_l. apply Rlt_le, Rdiv_lt_0_compat; assumption.
  - unfold surp. assert (Hx : 0 < x) by lra. assert (ln (x + entropy_eps) - ln x <= entropy_eps / x).
    { rewrite <- ln_quot by lra. replace ((x + entropy_eps) / x) with (1 + entropy_eps / x) by (field; lra).
      assert (0 < entropy_eps / x) by (apply Rdiv_lt_0_compat; assumption). pose proof (ln_le_sub1 (1 + entropy_eps / x)). lra. }
    unfold Rdiv. rewrite <- !Rmult_assoc. rewrite <- Rmult_plus_distr_r. apply Rmult_le_compat_r; [left; apply Rinv_0_lt_compat; exact L|].
    assert (x * (entropy_eps / x) = entropy_eps) by (field; lra). nra.
Qed.
Lemma hent_le_log b p : 1 < b -> p <> [] -> Forall (fun x => 0 <= x) p -> rsum p = 1 -> hent b p <= ln (INR (length p)) / ln b.
Proof.
  intros Hb Hne H S. pose proof (ln_base_pos b Hb) as L. pose proof eps_pos as E.
  assert (HK : 0 < INR (length p)) by (apply lt_0_INR; destruct p; [congruence|cbn; lia]). set (K := INR (length p)) in *.
  assert (G : hent b p <= rsum (map (fun x => x * (ln K / ln b) + (/ K * / ln b + x * - / ln b)) p)).
  { apply rsum_le_map. intros x I. rewrite Forall_forall in H. specialize (H x I). unfold surp.
    assert (HP : 0 < K * (x + entropy_eps)) by (apply Rmult_lt_0_compat; lra).
    pose proof (ln_le_sub1 (/ (K * (x + entropy_eps))) (Rinv_0_lt_compat _ HP)) as J. rewrite ln_Rinv, ln_mult in J by lra.
    assert (X : x * / (K * (x + entropy_eps)) <= / K).
    { apply Rmult_le_reg_r with (K * (x + entropy_eps)); [exact HP|]. field_simplify; [|lra|split; lra]. lra. }
    replace (x * (- ln (x + entropy_eps) / ln b)) with ((x * - ln (x + entropy_eps)) * / ln b) by (field; lra).
    replace (x * (ln K / ln b) + (/ K * / ln b + x * - / ln b)) with ((x * ln K + / K - x) * / ln b) by (field; lra).
    apply Rmult_le_compat_r; [left; apply Rinv_0_lt_compat; exact L|]. nra. }
  rewrite rsum_map_plus, rsum_map_plus, rsum_map_const in G.
  assert (Hs : forall c, rsum (map (fun x => x * c) p) = c).
  { intros c. transitivity (c * rsum (map (fun x => x) p)); [rewrite <- rsum_map_scal; f_equal; apply map_ext; intros; ring|]. rewrite map_id, S. ring. }
  rewrite !Hs in G. fold K in G. replace (K * (/ K * / ln b)) with (/ ln b) in G by (field; lra). lra.
Qed.
Lemma hent_lower b p : 1 < b -> Forall (fun x => 0 <= x) p -> rsum p = 1 -> - (entropy_eps / ln b) <= hent b p.
Proof.
  intros Hb H S. pose proof (ln_base_pos b Hb) as L. pose proof eps_pos as E.
  replace (- (entropy_eps / ln b)) with (rsum (map (fun x => - (entropy_eps / ln b) * x) p)).
  2:{ rewrite rsum_map_scal, map_id, S. ring. }
  apply rsum_le_map. intros x I. pose proof (entry_le_one p x H S I). rewrite Forall_forall in H. specialize (H x I). unfold surp.
  assert (ln (x + entropy_eps) <= entropy_eps). { pose proof (ln_le_sub1 (x + entropy_eps)). lra. }
  replace (- (entropy_eps / ln b) * x) with (x * - entropy_eps * / ln b) by (field; lra).
  replace (x * (- ln (x + entropy_eps) / ln b)) with (x * - ln (x + entropy_eps) * / ln b) by (field; lra).
  apply Rmult_le_compat_r; [left; apply Rinv_0_lt_compat; exact L|]. nra.
Qed.
(** The uniform distribution reaches the bound up to the constant. *)
Lemma shannon_uniform b n : 1 < b -> (0 < n)%nat -> shannon b (repeat (/ INR n) n) = ln (INR n) / ln b.
Proof.
  intros Hb Hn. assert (HK : 0 < INR n) by (apply lt_0_INR; exact Hn). pose proof (ln_base_pos b Hb) as L. unfold shannon.
  rewrite (map_ext_in _ (fun _ => / INR n * (ln (INR n) / ln b))).
  - rewrite rsum_map_const, repeat_length. field. lra.
  - intros x I. apply repeat_spec in I. subst x. destruct (Req_EM_T (/ INR n) 0) as [Z|Z]; [pose proof (Rinv_0_lt_compat _ HK); lra|]. rewrite ln_Rinv by exact HK. field. lra.
Qed.
