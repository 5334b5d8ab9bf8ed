(** Increasing affine maps pass through sorting, quartiles, fences and grids. *)
From Coq Require Import Permutation Sorted.
From Verif Require Import Base BaseFacts RBase RFacts M_Logit M_Mono M_Lik M_Est M_Stat M_Grid P_Grid1 P_Grid3 M_BitPop.
Import M_Est List.
Local Open Scope R_scope.

Lemma sort_by_map {A B} (F : A -> B) (leb : A -> A -> bool) (leb' : B -> B -> bool) : (forall x y, leb' (F x) (F y) = leb x y) ->
  forall l, sort_by leb' (map F l) = map F (sort_by leb l).
Proof.
  intros H l. unfold sort_by. induction l as [|x l IH]; [reflexivity|]. cbn [map fold_right]. rewrite IH. generalize (fold_right (insert_by leb) [] l). clear IH l.
  intro l. induction l as [|y l IH]; [reflexivity|]. cbn [map insert_by]. rewrite H. destruct (leb x y); [reflexivity|]. cbn [map]. now rewrite IH.
Qed.

Section Affine.
  Variables (a b : R).
  Hypothesis Ha : 0 < a.
  Let A (x : R) : R := a * x + b.
  Lemma A_le x y : A x <= A y <-> x <= y.
  Proof. unfold A. split; intro H; [apply Rmult_le_reg_l with a; lra|]. apply Rplus_le_compat_r. apply Rmult_le_compat_l; lra. Qed.
  Lemma A_lt x y : A x < A y <-> x < y.
  Proof. pose proof (A_le y x). split; intro H1; apply Rnot_le_lt; intro H2; apply H in H2; lra. Qed.
  Lemma A_inj x y : A x = A y <-> x = y.
  Proof. split; [|now intros ->]. intro H. apply Rle_antisym; apply A_le; rewrite H; apply Rle_refl. Qed.
  Lemma A_rleb x y : rleb (A x) (A y) = rleb x y.
  Proof. unfold rleb. pose proof (A_le x y). destruct (Rle_dec (A x) (A y)), (Rle_dec x y); tauto. Qed.
  Lemma A_max x y : Rmax (A x) (A y) = A (Rmax x y).
  Proof. destruct (Rle_dec x y) as [H|H]; [rewrite !Rmax_right|rewrite !Rmax_left]; try reflexivity; try lra; apply A_le; lra. Qed.
  Lemma A_min x y : Rmin (A x) (A y) = A (Rmin x y).
  Proof. destruct (Rle_dec x y) as [H|H]; [rewrite !Rmin_left|rewrite !Rmin_right]; try reflexivity; try lra; apply A_le; lra. Qed.

  Lemma A_sort l : sort_r (map A l) = map A (sort_r l).
  Proof. rewrite !sort_r_by. apply sort_by_map. apply A_rleb. Qed.
  Lemma A_sort_indexed l : sort_indexed rleb (map A l) = map (fun p => (A (fst p), snd p)) (sort_indexed rleb l).
  Proof.
    unfold sort_indexed. rewrite map_length. replace (combine (map A l) (seq 0 (length l))) with (map (fun p : R * nat => (A (fst p), snd p)) (combine l (seq 0 (length l)))).
    - apply sort_by_map. intros [x i] [y k]. apply A_rleb.
    - generalize 0%nat. induction l as [|x l IH]; intro o; [reflexivity|]. cbn [length seq combine map fst snd]. now rewrite IH.
  Qed.
  Lemma A_unique l : unique_r (map A l) = map A (unique_r l).
  Proof.
    unfold unique_r. induction l as [|x l IH]; [reflexivity|]. cbn [map fold_right]. rewrite IH. generalize (fold_right insert_unique [] l). clear IH l.
    intro l. induction l as [|y l IH]; [reflexivity|]. cbn [map insert_unique]. pose proof (A_inj x y). pose proof (A_lt x y).
    destruct (Req_EM_T (A x) (A y)), (Req_EM_T x y); try tauto. destruct (Rlt_dec (A x) (A y)), (Rlt_dec x y); try tauto. cbn [map]. now rewrite IH.
  Qed.
  Lemma A_position x u : position (A x) (map A u) = position x u.
  Proof. induction u as [|y u IH]; [reflexivity|]. cbn [map position]. pose proof (A_inj x y). destruct (Req_EM_T (A x) (A y)), (Req_EM_T x y); try tauto. now rewrite IH. Qed.
  Lemma A_nth k l : (k < length l)%nat -> nth k (map A l) 0 = A (nth k l 0).
  Proof. intro H. rewrite nth_indep with (d' := A 0) by (now rewrite map_length). apply map_nth. Qed.

  Lemma A_quartile q l : (q <= 4)%nat -> quartile q (map A l) = bind (quartile q l) (fun v => Ok (A v)).
  Proof.
    intro Q. destruct l as [|x l]; [reflexivity|]. set (l0 := x :: l). change (map A l0) with (A x :: map A l). cbn [quartile]. change (A x :: map A l) with (map A l0).
    rewrite A_sort, map_length. assert (L : (0 < length l0)%nat) by (cbn; lia). destruct (quarter_index q (length l0 - 1) Q) as [H1 H2]. rewrite !A_nth.
    - change (quartile q l0) with (Ok (nth (q * (length l0 - 1) / 4) (sort_r l0) 0 + INR ((q * (length l0 - 1)) mod 4) / 4 * (nth (if ((q * (length l0 - 1)) mod 4 =? 0)%nat then (q * (length l0 - 1) / 4)%nat else (q * (length l0 - 1) / 4 + 1)%nat) (sort_r l0) 0 - nth (q * (length l0 - 1) / 4) (sort_r l0) 0))).
      cbn [bind]. f_equal. unfold A. ring.
    - rewrite sort_r_length. destruct ((q * (length l0 - 1)) mod 4 =? 0)%nat eqn:E; [lia|]. apply Nat.eqb_neq in E. specialize (H2 E). lia.
    - rewrite sort_r_length. lia.
  Qed.
  Lemma A_fences f l : fences f (map A l) = bind (fences f l) (fun p => Ok (A (fst p), A (snd p))).
  Proof.
    unfold fences. rewrite !A_quartile by lia. destruct (quartile 1 l) as [q1|]; [|reflexivity]. cbn [bind]. destruct (quartile 3 l) as [q3|]; [|reflexivity]. cbn [bind fst snd].
    f_equal. f_equal; unfold A; ring.
  Qed.
  Lemma A_outlier f news l u w : is_outlier f (map A news) (map A l) u w = is_outlier f news l u w.
  Proof.
    unfold is_outlier. destruct (negb u && negb w); [reflexivity|]. rewrite A_fences. destruct (fences f l) as [[x y]|]; [|reflexivity]. cbn [bind fst snd]. f_equal. rewrite map_map.
    apply map_ext. intro v. unfold outside. cbn [fst snd]. now rewrite !A_rleb.
  Qed.
  Definition on_ext (e : ext) : ext := match e with Fin x => Fin (A x) | e => e end.
  Lemma A_ext_ltb x y : ext_ltb (on_ext x) (on_ext y) = ext_ltb x y.
  Proof. destruct x as [u| |], y as [v| |]; try reflexivity. cbn. pose proof (A_lt u v). destruct (Rlt_dec (A u) (A v)), (Rlt_dec u v); tauto. Qed.
  Lemma A_ext_max x y : ext_max (on_ext x) (on_ext y) = on_ext (ext_max x y).
  Proof. unfold ext_max. rewrite A_ext_ltb. destruct (ext_ltb x y); reflexivity. Qed.
  Lemma A_ext_min x y : ext_min (on_ext x) (on_ext y) = on_ext (ext_min x y).
  Proof. unfold ext_min. rewrite A_ext_ltb. destruct (ext_ltb y x); reflexivity. Qed.
  Lemma A_limit f l smallest : limit_non_outlier f (map A l) smallest = bind (limit_non_outlier f l smallest) (fun e => Ok (on_ext e)).
  Proof.
    unfold limit_non_outlier. rewrite A_fences. destruct (fences f l) as [[x y]|]; [|reflexivity]. cbn [bind fst snd]. f_equal. rewrite map_map.
    assert (E : map (fun v => if rleb (A x) (A v) && rleb (A v) (A y) then Fin (A v) else if smallest then PInf else NInf) l = map on_ext (map (fun v => if rleb x v && rleb v y then Fin v else if smallest then PInf else NInf) l)).
    { rewrite map_map. apply map_ext. intro v. rewrite !A_rleb. destruct (rleb x v && rleb v y); [reflexivity|]. destruct smallest; reflexivity. }
    rewrite E. generalize (map (fun v => if rleb x v && rleb v y then Fin v else if smallest then PInf else NInf) l). clear E. intro L. destruct smallest.
    - induction L as [|e L IH]; [reflexivity|]. cbn [map fold_right]. now rewrite IH, A_ext_min.
    - induction L as [|e L IH]; [reflexivity|]. cbn [map fold_right]. now rewrite IH, A_ext_max.
  Qed.
  Lemma A_median l : l <> [] -> median (map A l) = A (median l).
  Proof. intro H. assert (0 < length l)%nat by (destruct l; [congruence|cbn; lia]). unfold median. rewrite A_sort, map_length. apply A_nth. rewrite sort_r_length. apply Nat.div_lt_upper_bound; lia. Qed.

  Lemma A_grid gp lo hi s col : bit_grid gp (A lo) (A hi) (A s) (map A col) = map A (bit_grid gp lo hi s col).
  Proof.
    unfold bit_grid. assert (E : map (fun g => Rmax g (A s)) (map (fun r => (1 - r) * A lo + r * A hi) (linspace 0 1 gp) ++ map A col) = map A (map (fun g => Rmax g s) (map (fun r => (1 - r) * lo + r * hi) (linspace 0 1 gp) ++ col))).
    { rewrite !map_app, !map_map. f_equal; apply map_ext; intro r; rewrite <- A_max; [|reflexivity]. f_equal. unfold A. ring. }
    rewrite E. destruct (map (fun g => Rmax g s) (map (fun r => (1 - r) * lo + r * hi) (linspace 0 1 gp) ++ col)); reflexivity.
  Qed.
  Lemma A_variable ent ent' gp med med' j lo hi s col : (forall v, ent' (upd j (A v) med') = ent (upd j v med)) ->
    bit_scores_variable ent' gp med' j (A lo) (A hi) (A s) (map A col) = bit_scores_variable ent gp med j lo hi s col.
  Proof.
    intro H. unfold bit_scores_variable. cbv zeta. rewrite A_grid, A_sort_indexed. set (srt := sort_indexed rleb (bit_grid gp lo hi s col)).
    assert (F1 : map fst (map (fun p : R * nat => (A (fst p), snd p)) srt) = map A (map fst srt)) by (rewrite !map_map; now apply map_ext).
    assert (F2 : map snd (map (fun p : R * nat => (A (fst p), snd p)) srt) = map snd srt) by (rewrite !map_map; now apply map_ext).
    rewrite F1, F2, A_unique. set (u := unique_r (map fst srt)).
    assert (F3 : map (fun x => position x (map A u)) (map A (map fst srt)) = map (fun x => position x u) (map fst srt)) by (rewrite map_map; apply map_ext; intro x; apply A_position).
    assert (F4 : map (fun v => ent' (upd j v med')) (map A u) = map (fun v => ent (upd j v med)) u) by (rewrite map_map; apply map_ext; exact H).
    rewrite F3, F4, !map_length. reflexivity.
  Qed.
  Lemma A_coordinate gp k r t s lo hi : grid_coordinate gp k r (A t) (A s) (A lo) (A hi) = A (grid_coordinate gp k r t s lo hi).
  Proof.
    unfold grid_coordinate. cbv zeta. rewrite A_max, A_min. pose proof (A_lt t lo) as H1. pose proof (A_lt hi t) as H2.
    replace (A lo + r * (A (Rmin (Rmax t lo) hi) - A lo)) with (A (lo + r * (Rmin (Rmax t lo) hi - lo))) by (unfold A; ring).
    destruct (Rlt_dec (A t) (A lo)), (Rlt_dec t lo); try tauto; rewrite A_max; destruct (Rlt_dec (A hi) (A t)), (Rlt_dec hi t); try tauto; destruct (k =? gp - 1)%nat, (k =? 0)%nat; reflexivity.
  Qed.
End Affine.
