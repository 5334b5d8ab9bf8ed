(** Precision, recall, F1. *)
From Verif Require Import Base BaseFacts RBase RFacts M_Data M_Logit M_Lik M_Est M_Stat M_Grid M_Eval S_Lik S_Est S_Eval P_Lik3 P_Stat3 P_Stat5 P_Eval1.
Local Open Scope R_scope.

Lemma tally_split {A} (f g : A -> bool) l : tally f l = (tally (fun x => f x && g x)%bool l + tally (fun x => f x && negb (g x))%bool l)%nat.
Proof. unfold tally. induction l as [|a l IH]; [reflexivity|]. cbn [filter]. destruct (f a), (g a); cbn [andb negb length]; lia. Qed.
Lemma tally_le {A} (f g : A -> bool) l : (forall x, In x l -> f x = true -> g x = true) -> (tally f l <= tally g l)%nat.
Proof.
  unfold tally. induction l as [|a l IH]; intros H; [reflexivity|]. cbn [filter]. specialize (IH (fun x Hx => H x (or_intror Hx))).
  destruct (f a) eqn:E; [rewrite (H a (or_introl eq_refl) E); cbn [length]; lia|]. destruct (g a); cbn [length]; lia.
Qed.
Lemma tally_map {A B} (f : B -> bool) (g : A -> B) l : tally f (map g l) = tally (fun x => f (g x)) l.
Proof. unfold tally. induction l as [|a l IH]; [reflexivity|]. cbn [map filter]. destruct (f (g a)); cbn [length]; lia. Qed.
Lemma tally_filter {A} (f g : A -> bool) l : tally f (filter g l) = tally (fun x => g x && f x)%bool l.
Proof. unfold tally. induction l as [|a l IH]; [reflexivity|]. cbn [filter]. destruct (g a); cbn [filter andb]; [destruct (f a); cbn [length]; lia|exact IH]. Qed.
Lemma tally_sum {A} (f : nat -> A -> bool) (g : A -> bool) K l :
  (forall x, In x l -> g x = true -> exists k, (k < K)%nat /\ f k x = true) ->
  (forall x k, In x l -> f k x = true -> g x = true) ->
  (forall x j k, f j x = true -> f k x = true -> j = k) ->
  INR (tally g l) = sumn K (fun k => INR (tally (f k) l)).
Proof.
  intros Hex Hg Hu. revert Hex Hg. induction l as [|a l IH]; intros Hex Hg.
  - cbn. symmetry. apply (P_Stat1.sumn_zero K (fun _ => 0)). reflexivity.
  - specialize (IH (fun x Hx => Hex x (or_intror Hx)) (fun x k Hx => Hg x k (or_intror Hx))).
    assert (E : forall k, INR (tally (f k) (a :: l)) = (if f k a then 1 else 0) + INR (tally (f k) l)).
    { intros k. unfold tally. cbn [filter]. destruct (f k a); cbn [length]; rewrite ?S_INR; lra. }
    rewrite (sumn_ext K _ (fun k => (if f k a then 1 else 0) + INR (tally (f k) l))) by (intros; apply E).
    rewrite sumn_plus, <- IH. unfold tally at 1. cbn [filter]. destruct (g a) eqn:G; cbn [length].
    + destruct (Hex a (or_introl eq_refl) G) as (k0 & H0 & F0).
      rewrite (sumn_ext K (fun k => if f k a then 1 else 0) (fun k => if (k =? k0)%nat then 1 else 0)).
      2:{ intros k _. destruct (Nat.eqb_spec k k0) as [->|Nk]; [rewrite F0; reflexivity|]. destruct (f k a) eqn:F; [|reflexivity]. elim Nk. apply (Hu a); assumption. }
      rewrite (sumn_single K k0 (fun k => if (k =? k0)%nat then 1 else 0) H0) by (intros k _ Nk; destruct (Nat.eqb_spec k k0); [contradiction|reflexivity]).
      rewrite Nat.eqb_refl, S_INR. unfold tally. lra.
    + rewrite P_Stat1.sumn_zero; [unfold tally; lra|]. intros k _. destruct (f k a) eqn:F; [|reflexivity]. rewrite (Hg a k (or_introl eq_refl) F) in G. discriminate.
Qed.
Lemma ratio0_share a b : ratio0 a b = share0 a (a + b).
Proof.
  unfold ratio0, share0. destruct (Nat.eqb_spec a 0) as [->|N]; [|destruct (Nat.eqb_spec (a + b) 0); [lia|reflexivity]].
  cbn [INR]. destruct (0 + b =? 0)%nat; [reflexivity|]. unfold Rdiv. ring.
Qed.
Lemma INR_pos n : (0 < n)%nat -> 0 < INR n.
Proof. intros. change 0 with (INR 0). apply lt_INR. assumption. Qed.
Lemma f1_share a b c : f1_score (share0 a (a + b)) (share0 a (a + c)) = share0 (2 * a) ((a + b) + (a + c)).
Proof.
  unfold f1_score, share0. destruct (Nat.eqb_spec a 0) as [->|N].
  - assert (E : forall n, (if (n =? 0)%nat then 0 else INR 0 / INR n) = 0).
    { intros n. destruct (n =? 0)%nat; [reflexivity|]. cbn [INR]. unfold Rdiv. ring. }
    rewrite (E (0 + b)%nat), Rmult_0_l. change (2 * 0)%nat with 0%nat. rewrite E. destruct (Req_EM_T 0 0); [|lra]. symmetry. apply E.
  - assert (A : 0 < INR a) by (apply INR_pos; lia). pose proof (pos_INR b) as B. pose proof (pos_INR c) as C.
    destruct (Nat.eqb_spec (a + b) 0); [lia|]. destruct (Nat.eqb_spec (a + c) 0); [lia|]. destruct (Nat.eqb_spec (a + b + (a + c)) 0); [lia|].
    rewrite !plus_INR, mult_INR. change (INR 2) with 2.
    assert (P : 0 < INR a / (INR a + INR b)) by (apply Rdiv_lt_0_compat; lra). assert (Q : 0 < INR a / (INR a + INR c)) by (apply Rdiv_lt_0_compat; lra).
    pose proof (Rmult_lt_0_compat _ _ P Q) as PQ.
    destruct (Req_EM_T (INR a / (INR a + INR b) * (INR a / (INR a + INR c))) 0); [lra|]. field.
    split; [lra|]. split; [lra|]. split; [lra|]. nra.
Qed.
Lemma osum_some {A} (f : A -> R) l : osum (map (fun a => Some (f a)) l) = Some (rsum (map f l)).
Proof. induction l; [reflexivity|]. cbn [map osum rsum]. rewrite IHl. reflexivity. Qed.

Section Item.
  Variables (N I : nat) (pred : nat -> nat -> nat) (cf : nat -> nat -> cell) (i : nat).
  Hypothesis Hi : (i < I)%nat.
  Notation rows := (grid N I cf).
  Let obs := observed_rows (map (fun n => pred n i) (seq 0 N)) (map (fun n => cf n i) (seq 0 N)).
  Lemma obs_count f : count f obs = tally (fun n => seen rows n i && f (pred n i, cf n i))%bool (everyone N).
  Proof.
    unfold count, obs, observed_rows. rewrite combine_maps. change (length (filter f ?l)) with (tally f l). rewrite tally_filter, tally_map.
    apply tally_ext. intros n Hn. apply in_seq in Hn. rewrite seen_grid by lia. reflexivity.
  Qed.
  Lemma obs_length : length obs = answerers N rows i.
  Proof.
    unfold obs, observed_rows, answerers. rewrite combine_maps. change (length (filter ?f ?l)) with (tally f l). rewrite tally_map.
    apply tally_ext. intros n Hn. apply in_seq in Hn. rewrite seen_grid by lia. reflexivity.
  Qed.
  Lemma seen_chose n k : (n < N)%nat -> (seen rows n i && chose rows n i k)%bool = chose rows n i k.
  Proof. intros Hn. rewrite seen_grid, chose_grid by lia. apply says_and. Qed.
  Lemma count_given k : count (fun p => says (snd p) k) obs = given N rows i k.
  Proof.
    rewrite obs_count. unfold given. apply tally_ext. intros n Hn. apply in_seq in Hn. cbn [snd]. rewrite <- (seen_chose n k) by lia.
    rewrite (chose_grid N I) by lia. reflexivity.
  Qed.
  Lemma count_right k : count (fun p => says (snd p) k && (fst p =? k)%nat)%bool obs = right N rows pred i k.
  Proof.
    rewrite obs_count. unfold right. apply tally_ext. intros n Hn. apply in_seq in Hn. cbn [fst snd]. rewrite <- (seen_chose n k) by lia.
    rewrite (chose_grid N I) by lia. apply andb_assoc.
  Qed.
  Lemma count_guessed k : (right N rows pred i k + count (fun p => negb (says (snd p) k) && (fst p =? k)%nat)%bool obs)%nat = guessed N rows pred i k.
  Proof.
    rewrite <- count_right, !obs_count. unfold guessed. rewrite (tally_split (fun n => seen rows n i && (pred n i =? k)%nat)%bool (fun n => says (cf n i) k)). f_equal;
      apply tally_ext; intros n _; cbn [fst snd]; destruct (seen rows n i), (says (cf n i) k), (pred n i =? k)%nat; reflexivity.
  Qed.
  Lemma count_missed k : (right N rows pred i k + count (fun p => says (snd p) k && negb (fst p =? k)%nat)%bool obs)%nat = given N rows i k.
  Proof.
    rewrite <- count_right, <- count_given, !obs_count. rewrite (tally_split (fun n => seen rows n i && says (snd (pred n i, cf n i)) k)%bool (fun n => (pred n i =? k)%nat)). f_equal;
      apply tally_ext; intros n _; cbn [fst snd]; destruct (seen rows n i), (says (cf n i) k), (pred n i =? k)%nat; reflexivity.
  Qed.
  Lemma category_spec k : category_metrics obs k =
    CatScores (precision_of N rows pred i k) (recall_of N rows pred i k) (f1_of N rows pred i k)
      (if (answerers N rows i =? 0)%nat then None else Some (INR (given N rows i k) / INR (answerers N rows i))).
  Proof.
    unfold category_metrics. rewrite count_given, obs_length. rewrite !ratio0_share. rewrite !count_right, count_guessed, count_missed.
    unfold precision_of, recall_of, f1_of. f_equal. rewrite <- (count_guessed k) at 1. rewrite <- (count_missed k) at 1. rewrite f1_share.
    rewrite count_guessed, count_missed. reflexivity.
  Qed.
  Lemma item_spec K : (0 < K)%nat -> item_metrics obs K =
    ItemScores (plain_average K (precision_of N rows pred i)) (plain_average K (recall_of N rows pred i)) (plain_average K (f1_of N rows pred i))
      (weighted_average N rows i K (precision_of N rows pred i)) (weighted_average N rows i K (recall_of N rows pred i)) (weighted_average N rows i K (f1_of N rows pred i)).
  Proof.
    intros HK. unfold item_metrics.
    assert (M : forall f g, (forall k, f (category_metrics obs k) = g k) -> rsum (map (fun c => f c / INR K) (map (category_metrics obs) (seq 0 K))) = plain_average K g).
    { intros f g H. rewrite map_map. rewrite (map_ext _ (fun k => g k / INR K)) by (intros; rewrite H; reflexivity). unfold plain_average.
      rewrite rsum_seq. unfold Rdiv. apply sumn_scal_r. }
    assert (W : forall f g, (forall k, f (category_metrics obs k) = g k) ->
      osum (map (fun c => olift2 Rmult (Some (f c)) (cs_weight c)) (map (category_metrics obs) (seq 0 K))) = weighted_average N rows i K g).
    { intros f g H. rewrite map_map. unfold weighted_average. destruct (answerers N rows i =? 0)%nat eqn:E.
      - destruct K as [|K]; [lia|]. cbn [seq map osum]. rewrite category_spec at 2. rewrite E. reflexivity.
      - rewrite (map_ext _ (fun k => Some (INR (given N rows i k) / INR (answerers N rows i) * g k))).
        2:{ intros k. rewrite H, category_spec, E. cbn. f_equal. ring. }
        rewrite osum_some, rsum_seq. reflexivity. }
    rewrite (M cs_precision (precision_of N rows pred i)), (M cs_recall (recall_of N rows pred i)), (M cs_f1 (f1_of N rows pred i)),
      (W cs_precision (precision_of N rows pred i)), (W cs_recall (recall_of N rows pred i)), (W cs_f1 (f1_of N rows pred i));
      try reflexivity; intros k; rewrite category_spec; reflexivity.
  Qed.
End Item.

Lemma predictions_spec N cats probs rows pred :
  rect N (length cats) probs -> rect N (length cats) rows ->
  (forall n i p, at2 probs n i = Some p -> top p (pred n i)) ->
  exists ms, predictions cats probs (Wide (length cats) rows) = Ok ms /\ length ms = length cats /\
  forall i K, nth_error cats i = Some K -> (0 < K)%nat ->
    nth_error ms i = Some (ItemScores (plain_average K (precision_of N rows pred i)) (plain_average K (recall_of N rows pred i)) (plain_average K (f1_of N rows pred i))
      (weighted_average N rows i K (precision_of N rows pred i)) (weighted_average N rows i K (recall_of N rows pred i)) (weighted_average N rows i K (f1_of N rows pred i))).
Proof.
  intros HP HR HT. set (I := length cats) in *. rewrite (rect_grid [] N I probs HP) in *. set (pf := fun n i => nth i (nth n probs []) []) in *. clearbody pf.
  rewrite (rect_grid None N I rows HR) in *. set (cf := fun n i => nth i (nth n rows []) None) in *. clearbody cf.
  unfold predictions, predicted. rewrite (mapM_grid rargmax N I pf pred).
  2:{ intros n i Hn Hi. apply rargmax_is. apply HT. apply at2_grid; assumption. }
  cbn [bind w_rows]. rewrite same_shape_grid. eexists. split; [reflexivity|]. split; [apply mapi_length|].
  intros i K Hi HK. rewrite nth_error_mapi, Hi. cbn [option_map]. f_equal.
  assert (L : (i < I)%nat) by (apply nth_error_Some; congruence).
  rewrite !column_grid by exact L. apply item_spec; assumption.
Qed.
