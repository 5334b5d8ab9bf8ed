(** Mutual information differences. *)
From Verif Require Import Base BaseFacts RBase RFacts M_Logit M_Mono M_Lik M_Est M_Stat S_Stat P_Stat1 P_Stat2 P_Stat3 P_Stat4 P_Stat5 P_Stat6 P_Stat7 P_Stat8 T_Stat S_Mid.
Local Open Scope R_scope.

Lemma zip_with_same_map {A B C D} (g : B -> C -> D) (f : A -> B) (h : A -> C) l : zip_with g (map f l) (map h l) = map (fun x => g (f x) (h x)) l.
Proof. induction l as [|x l IH]; [reflexivity|]. cbn [map zip_with]. now rewrite IH. Qed.
Lemma mid_square n f g : mid (square n f) (square n g) = square n (fun i j => f i j - g i j).
Proof. unfold mid, square. rewrite zip_with_same_map. apply map_ext. intro i. rewrite zip_with_same_map. apply map_ext. intro j. reflexivity. Qed.
Lemma amid_square n f g : amid (square n f) (square n g) = square n (fun i j => Rabs (f i j - g i j)).
Proof. unfold amid. rewrite mid_square. unfold square. rewrite map_map. apply map_ext. intro i. rewrite map_map. reflexivity. Qed.

Lemma implied_grid b m probs i j : implied_information b m probs i j =
  (sumn m (fun k => hterm (mean (map (fun r => nth k (nth i r []) 0) probs))) + sumn m (fun k => hterm (mean (map (fun r => nth k (nth j r []) 0) probs)))
   - sumn m (fun k => sumn m (fun l => hterm (pair_probability probs i j k l)))) / ln b.
Proof.
  unfold implied_information. rewrite !shannon_hterm. unfold average_law, average_pair_law. rewrite !map_map, !rsum_seq.
  replace (map (fun x => hterm (let '(k, l) := x in mean (map (fun r => nth k (nth i r []) 0 * nth l (nth j r []) 0) probs))) (list_prod (seq 0 m) (seq 0 m)))
    with (map (fun x => hterm (pair_probability probs i j (fst x) (snd x))) (grid m)) by (unfold grid; apply map_ext; intros [k l]; reflexivity).
  rewrite (rsum_grid (fun x => hterm (pair_probability probs i j (fst x) (snd x)))). cbn [fst snd]. unfold Rdiv. ring.
Qed.
Lemma observed_grid b data i j m : answered i data -> answered j data -> incl (joint_answers i j data) (grid m) ->
  observed_information b data i j =
  (sumn m (fun k => hterm (sumn m (fun l => frequency (joint_answers i j data) (k, l)))) + sumn m (fun l => hterm (sumn m (fun k => frequency (joint_answers i j data) (k, l))))
   - sumn m (fun k => sumn m (fun l => hterm (frequency (joint_answers i j data) (k, l))))) / ln b.
Proof.
  intros Hi Hj I. unfold observed_information. destruct (joint_dup i j data Hi Hj) as [A B]. rewrite A, B, dup2_swap.
  rewrite (marginal_entropy b _ m I), (marginal_entropy b (map swap (joint_answers i j data)) m) by (apply swap_grid; exact I). rewrite (joint_entropy_grid b _ m I).
  rewrite (sumn_ext m (fun k => hterm (sumn m (fun l => frequency (map swap (joint_answers i j data)) (k, l)))) (fun l => hterm (sumn m (fun k => frequency (joint_answers i j data) (k, l))))).
  - unfold Rdiv. ring.
  - intros l _. f_equal. apply sumn_ext. intros k _. apply frequency_swap.
Qed.
Section Implied.
  Variables (m items : nat) (probs : list (list (list R))).
  Hypothesis Hne : probs <> [].
  Hypothesis HD : forall r i, In r probs -> (i < items)%nat -> is_distribution (nth i r []) m.
  (** The margins of the pair probabilities. *)
  Lemma implied_margins b i j : (i < items)%nat -> (j < items)%nat -> implied_information b m probs i j =
    (sumn m (fun k => hterm (sumn m (fun l => pair_probability probs i j k l))) + sumn m (fun l => hterm (sumn m (fun k => pair_probability probs i j k l)))
     - sumn m (fun k => sumn m (fun l => hterm (pair_probability probs i j k l)))) / ln b.
  Proof.
    intros Hi Hj. rewrite implied_grid. f_equal. f_equal. f_equal; apply sumn_ext; intros k Hk; f_equal; symmetry.
    - exact (pp_row m items probs HD i j k Hj).
    - exact (pp_col m items probs HD i j k Hi).
  Qed.
End Implied.
Lemma hterm_mult x y : 0 <= x -> 0 <= y -> hterm (x * y) = x * hterm y + y * hterm x.
Proof.
  intros Hx Hy. unfold hterm. destruct (Req_EM_T x 0) as [->|Nx]; [destruct (Req_EM_T (0 * y) 0) as [_|N]; [ring|exfalso; apply N; ring]|].
  destruct (Req_EM_T y 0) as [->|Ny]; [destruct (Req_EM_T (x * 0) 0) as [_|N]; [ring|exfalso; apply N; ring]|].
  destruct (Req_EM_T (x * y) 0) as [E|_]; [apply Rmult_integral in E; tauto|]. rewrite ln_mult by lra. ring.
Qed.
Lemma independent_information m (p q : nat -> R) : (forall k, (k < m)%nat -> 0 <= p k) -> (forall k, (k < m)%nat -> 0 <= q k) -> sumn m p = 1 -> sumn m q = 1 ->
  sumn m (fun k => sumn m (fun l => hterm (p k * q l))) = sumn m (fun k => hterm (p k)) + sumn m (fun l => hterm (q l)).
Proof.
  intros Hp Hq Sp Sq. rewrite (sumn_ext m _ (fun k => p k * sumn m (fun l => hterm (q l)) + hterm (p k) * sumn m q)).
  - rewrite sumn_plus, !sumn_scal_r, Sp, Sq. ring.
  - intros k Hk. rewrite (sumn_ext m _ (fun l => p k * hterm (q l) + hterm (p k) * q l)).
    + rewrite sumn_plus, !sumn_scal. reflexivity.
    + intros l Hl. rewrite hterm_mult by auto. ring.
Qed.
