(** Matrices given entry by entry; accuracy. *)
From Verif Require Import Base BaseFacts RBase RFacts M_Data M_Logit M_Lik M_Est M_Stat M_Grid M_Eval S_Lik S_Est S_Eval P_Lik3 P_Stat3 P_Stat5.
Local Open Scope R_scope.

Definition grid {A} (N I : nat) (f : nat -> nat -> A) : list (list A) := map (fun n => map (f n) (seq 0 I)) (seq 0 N).
Lemma grid_ext {A} N I (f g : nat -> nat -> A) : (forall n i, (n < N)%nat -> (i < I)%nat -> f n i = g n i) -> grid N I f = grid N I g.
Proof. intros H. unfold grid. apply map_ext_in. intros n Hn. apply in_seq in Hn. apply map_ext_in. intros i Hi. apply in_seq in Hi. apply H; lia. Qed.
Lemma list_map_nth {A} (d : A) l : l = map (fun i => nth i l d) (seq 0 (length l)).
Proof.
  apply nth_error_ext. intros i. rewrite nth_error_map. destruct (Nat.lt_ge_cases i (length l)) as [H|H].
  - rewrite nth_error_seq by exact H. cbn [option_map Nat.add]. apply nth_error_nth_lt. exact H.
  - rewrite !(proj2 (nth_error_None _ _)); [reflexivity|rewrite seq_length; lia|lia].
Qed.
Lemma rect_grid {A} (d : A) N I l : rect N I l -> l = grid N I (fun n i => nth i (nth n l []) d).
Proof.
  intros [HN HF]. unfold grid. rewrite <- HN. rewrite (list_map_nth [] l) at 1. apply map_ext_in. intros n Hn. apply in_seq in Hn.
  assert (L : length (nth n l []) = I) by (rewrite Forall_forall in HF; apply HF; apply nth_In; lia).
  rewrite (list_map_nth d (nth n l [])) at 1. rewrite L. reflexivity.
Qed.
Lemma grid_rect {A} N I (f : nat -> nat -> A) : rect N I (grid N I f).
Proof.
  unfold grid. split; [rewrite map_length, seq_length; reflexivity|]. apply Forall_forall. intros r H. apply in_map_iff in H as (n & <- & _).
  rewrite map_length, seq_length. reflexivity.
Qed.
Lemma at2_grid {A} N I (f : nat -> nat -> A) n i : (n < N)%nat -> (i < I)%nat -> at2 (grid N I f) n i = Some (f n i).
Proof.
  intros Hn Hi. unfold at2, grid. rewrite nth_error_map, nth_error_seq by exact Hn. cbn [option_map Nat.add].
  rewrite nth_error_map, nth_error_seq by exact Hi. reflexivity.
Qed.
Lemma at2_rect {A} N I (l : list (list A)) n i x : rect N I l -> at2 l n i = Some x -> (n < N)%nat /\ (i < I)%nat.
Proof.
  intros [HN HF] H. unfold at2 in H. destruct (nth_error l n) as [r|] eqn:E; [|discriminate].
  split; [rewrite <- HN; apply nth_error_Some; congruence|]. apply nth_error_In in E. rewrite Forall_forall in HF. rewrite <- (HF r E). apply nth_error_Some. congruence.
Qed.
Lemma same_shape_grid {A B} N I (f : nat -> nat -> A) (g : nat -> nat -> B) : same_shape (grid N I f) (grid N I g) = true.
Proof.
  unfold same_shape, grid. rewrite !map_length, Nat.eqb_refl. cbn [andb]. apply forallb_forall. intros [a b] H.
  pose proof (in_combine_l _ _ _ _ H) as Ha. pose proof (in_combine_r _ _ _ _ H) as Hb. apply in_map_iff in Ha as (? & <- & _). apply in_map_iff in Hb as (? & <- & _).
  cbn [fst snd]. rewrite !map_length. apply Nat.eqb_refl.
Qed.
Lemma zip_with_maps {A B C D} (h : B -> C -> D) (f : A -> B) (g : A -> C) l : zip_with h (map f l) (map g l) = map (fun x => h (f x) (g x)) l.
Proof. induction l; cbn; congruence. Qed.
Lemma combine_maps {A B C} (f : A -> B) (g : A -> C) l : combine (map f l) (map g l) = map (fun x => (f x, g x)) l.
Proof. induction l; cbn; congruence. Qed.
Lemma zip_grid {A B C} (h : A -> B -> C) N I f g : zip_with (zip_with h) (grid N I f) (grid N I g) = grid N I (fun n i => h (f n i) (g n i)).
Proof. unfold grid. rewrite zip_with_maps. apply map_ext. intros n. apply zip_with_maps. Qed.
Lemma zip2_grid {A B C} (h : A -> B -> C) N I f g : zip2 h (grid N I f) (grid N I g) = Ok (grid N I (fun n i => h (f n i) (g n i))).
Proof. unfold zip2. rewrite same_shape_grid, zip_grid. reflexivity. Qed.
Lemma mapM_map_ok {A B C} (h : B -> result C) (f : A -> B) (g : A -> C) l : (forall x, In x l -> h (f x) = Ok (g x)) -> mapM h (map f l) = Ok (map g l).
Proof.
  induction l as [|a l IH]; intros H; [reflexivity|]. cbn [map mapM]. rewrite (H a) by (left; reflexivity). cbn [bind].
  rewrite IH by (intros; apply H; right; assumption). reflexivity.
Qed.
Lemma mapM_grid {A B} (h : A -> result B) N I f g : (forall n i, (n < N)%nat -> (i < I)%nat -> h (f n i) = Ok (g n i)) ->
  mapM (mapM h) (grid N I f) = Ok (grid N I g).
Proof.
  intros H. unfold grid. apply mapM_map_ok. intros n Hn. apply in_seq in Hn. apply mapM_map_ok. intros i Hi. apply in_seq in Hi. apply H; lia.
Qed.
Lemma column_grid {A} (d : A) N I f i : (i < I)%nat -> column d i (grid N I f) = map (fun n => f n i) (seq 0 N).
Proof.
  intros Hi. unfold column, grid. rewrite map_map. apply map_ext. intros n. erewrite nth_error_nth; [reflexivity|].
  rewrite nth_error_map, nth_error_seq by exact Hi. reflexivity.
Qed.
Lemma concat_grid {A} N I (f : nat -> nat -> A) : concat (grid N I f) = map (fun p => f (fst p) (snd p)) (all_cells N I).
Proof.
  unfold grid, all_cells. induction (seq 0 N) as [|n l IH]; [reflexivity|]. cbn [map concat list_prod]. rewrite IH, map_app, map_map. reflexivity.
Qed.
Lemma over_grid {A B} (d : A) (h : list A -> B) N I f : over_respondents d h I (grid N I f) = map (fun i => h (map (fun n => f n i) (seq 0 N))) (seq 0 I).
Proof. unfold over_respondents. apply map_ext_in. intros i Hi. apply in_seq in Hi. rewrite column_grid by lia. reflexivity. Qed.
Lemma map_grid {A B} (h : list A -> B) N I f : map h (grid N I f) = map (fun n => h (map (f n) (seq 0 I))) (seq 0 N).
Proof. unfold grid. apply map_map. Qed.

(** ** Means with NaN *)
Lemma finite_map {A} (f : A -> nanr) l : finite (map f l) = flat_map (fun a => match f a with Some x => [x] | None => [] end) l.
Proof. unfold finite. induction l; cbn; [reflexivity|]. rewrite IHl. reflexivity. Qed.
Lemma nanmean_shares {A} (a b : A -> bool) l :
  nanmean_r (map (fun x => if a x then None else Some (if b x then 1 else 0)) l) =
  share (tally (fun x => negb (a x) && b x)%bool l) (tally (fun x => negb (a x)) l).
Proof.
  unfold nanmean_r. set (o := finite _).
  assert (L : length o = tally (fun x => negb (a x)) l).
  { subst o. unfold finite, tally. induction l as [|x l IH]; [reflexivity|]. cbn [map flat_map filter]. destruct (a x); cbn [negb app length]; rewrite ?IH; reflexivity. }
  assert (S : rsum o = INR (tally (fun x => negb (a x) && b x)%bool l)).
  { subst o. unfold finite, tally. clear L. induction l as [|x l IH]; [reflexivity|]. cbn [map flat_map filter].
    destruct (a x); cbn [negb app andb]; [exact IH|]. cbn [rsum]. destruct (b x); cbn [length]; rewrite ?S_INR; lra. }
  unfold share. rewrite <- L. destruct o as [|y o]; [reflexivity|]. unfold rmean. rewrite S. reflexivity.
Qed.

(** ** The most probable category *)
Lemma fgt_fin x y : fgt (Some (Fin x)) (Some (Fin y)) = if Rlt_dec y x then true else false.
Proof. reflexivity. Qed.
Lemma argmax_from_r l : forall i bi b, (bi < i)%nat ->
  let k := argmax_from i bi (Some (Fin b)) (map (fun x => Some (Fin x)) l) in
  (k = bi /\ forall j y, nth_error l j = Some y -> y <= b) \/
  (exists x, (i <= k)%nat /\ nth_error l (k - i) = Some x /\ b < x /\ forall j y, nth_error l j = Some y -> y <= x /\ ((j < k - i)%nat -> y < x)).
Proof.
  induction l as [|a l IH]; intros i bi b Hb k; [left; split; [reflexivity|intros [|j] y H; discriminate]|].
  subst k. cbn [map argmax_from]. rewrite fgt_fin. destruct (Rlt_dec b a) as [L|L].
  - right. destruct (IH (S i) i a ltac:(lia)) as [[E H]|(x & H1 & H2 & H3 & H4)].
    + exists a. rewrite E, Nat.sub_diag. split; [lia|]. split; [reflexivity|]. split; [exact L|]. intros [|j] y Hj; [|split; [apply (H j); exact Hj|lia]].
      cbn in Hj. injection Hj as <-. split; [lra|lia].
    + set (k := argmax_from (S i) i (Some (Fin a)) _) in *. exists x. split; [lia|]. replace (k - i)%nat with (S (k - S i)) by lia. split; [exact H2|]. split; [lra|].
      intros [|j] y Hj; [cbn in Hj; injection Hj as <-; split; [lra|intros; lra]|]. destruct (H4 j y Hj) as [P Q]. split; [exact P|]. intros. apply Q. lia.
  - destruct (IH (S i) bi b ltac:(lia)) as [[E H]|(x & H1 & H2 & H3 & H4)].
    + left. split; [exact E|]. intros [|j] y Hj; [cbn in Hj; injection Hj as <-; lra|apply (H j); exact Hj].
    + right. set (k := argmax_from (S i) bi (Some (Fin b)) _) in *. exists x. split; [lia|]. replace (k - i)%nat with (S (k - S i)) by lia. split; [exact H2|]. split; [lra|].
      intros [|j] y Hj; [cbn in Hj; injection Hj as <-; split; [lra|intros; lra]|]. destruct (H4 j y Hj) as [P Q]. split; [exact P|]. intros. apply Q. lia.
Qed.
Lemma top_unique p k k' : top p k -> top p k' -> k = k'.
Proof.
  intros (x & H1 & H2) (x' & H1' & H2'). destruct (H2 _ _ H1') as [A B]. destruct (H2' _ _ H1) as [A' B'].
  destruct (Nat.lt_trichotomy k k') as [L|[E|L]]; [specialize (B' L); lra|exact E|specialize (B L); lra].
Qed.
Lemma rargmax_top p : p <> [] -> exists k, rargmax p = Ok k /\ top p k.
Proof.
  intros H. destruct p as [|a l]; [congruence|]. unfold rargmax. cbn [map fargmax]. eexists; split; [reflexivity|].
  destruct (argmax_from_r l 1 0 a ltac:(lia)) as [[E H']|(x & H1 & H2 & H3 & H4)].
  - rewrite E. exists a. split; [reflexivity|]. intros [|j] y Hj; [cbn in Hj; injection Hj as <-; split; [lra|lia]|]. split; [apply (H' j); exact Hj|lia].
  - set (k := argmax_from 1 0 _ _) in *. exists x. replace k with (S (k - 1)) by lia. split; [exact H2|].
    intros [|j] y Hj; [cbn in Hj; injection Hj as <-; split; [lra|intros; lra]|]. destruct (H4 j y Hj) as [P Q]. split; [exact P|]. intros. apply Q. lia.
Qed.
Lemma rargmax_is p k : top p k -> rargmax p = Ok k.
Proof.
  intros H. assert (N : p <> []) by (destruct H as (x & H & _); intros ->; destruct k; discriminate).
  destruct (rargmax_top p N) as (k' & E & H'). rewrite E. f_equal. apply (top_unique p); assumption.
Qed.

(** ** Cells *)
Lemma seen_grid N I (f : nat -> nat -> cell) n i : (n < N)%nat -> (i < I)%nat -> seen (grid N I f) n i = negb (missing_cell (f n i)).
Proof. intros Hn Hi. unfold seen. rewrite at2_grid by assumption. unfold missing_cell, is_m1, is_nan. destruct (f n i) as [z|]; [|reflexivity]. rewrite orb_false_r. reflexivity. Qed.
Lemma chose_grid N I (f : nat -> nat -> cell) n i k : (n < N)%nat -> (i < I)%nat -> chose (grid N I f) n i k = says (f n i) k.
Proof. intros Hn Hi. unfold chose. rewrite at2_grid by assumption. reflexivity. Qed.
Lemma says_observed c k : says c k = true -> missing_cell c = false.
Proof. unfold says, missing_cell, is_m1, is_nan. destruct c as [z|]; [|discriminate]. rewrite orb_false_r. intros H. apply Z.eqb_eq in H. apply Z.eqb_neq. lia. Qed.
Lemma says_and c k : (negb (missing_cell c) && says c k)%bool = says c k.
Proof. destruct (says c k) eqn:E; [rewrite (says_observed c k E); reflexivity|apply andb_false_r]. Qed.
Lemma tally_ext {A} (f g : A -> bool) l : (forall x, In x l -> f x = g x) -> tally f l = tally g l.
Proof. intros H. unfold tally. f_equal. apply filter_ext_in. exact H. Qed.

Lemma accuracy_spec N I probs rows pred :
  rect N I probs -> rect N I rows ->
  (forall n i p, at2 probs n i = Some p -> top p (pred n i)) ->
  accuracy probs (Wide I rows) LItem = Ok (Vec (map (fun i =>
    share (tally (fun n => chose rows n i (pred n i)) (everyone N)) (tally (fun n => seen rows n i) (everyone N))) (seq 0 I))) /\
  accuracy probs (Wide I rows) LRespondent = Ok (Vec (map (fun n =>
    share (tally (fun i => chose rows n i (pred n i)) (seq 0 I)) (tally (fun i => seen rows n i) (seq 0 I))) (seq 0 N))) /\
  accuracy probs (Wide I rows) LAll = Ok (One
    (share (tally (fun c => chose rows (fst c) (snd c) (pred (fst c) (snd c))) (all_cells N I))
           (tally (fun c => seen rows (fst c) (snd c)) (all_cells N I)))).
Proof.
  intros HP HR HT. rewrite (rect_grid [] N I probs HP) in *. set (pf := fun n i => nth i (nth n probs []) []) in *. clearbody pf.
  rewrite (rect_grid None N I rows HR) in *. set (cf := fun n i => nth i (nth n rows []) None) in *. clearbody cf.
  assert (HT' : forall n i, (n < N)%nat -> (i < I)%nat -> rargmax (pf n i) = Ok (pred n i)).
  { intros n i Hn Hi. apply rargmax_is. apply HT. apply at2_grid; assumption. }
  assert (E : forall lv, accuracy (grid N I pf) (Wide I (grid N I cf)) lv = Ok (by_level lv I (grid N I (fun n i => hit (pred n i) (cf n i))))).
  { intros lv. unfold accuracy, predicted. rewrite (mapM_grid rargmax N I pf pred HT'). cbn [bind w_rows w_cols]. rewrite zip2_grid. reflexivity. }
  rewrite !E. unfold by_level. rewrite over_grid, map_grid, concat_grid. unfold hit.
  split; [|split]; f_equal; f_equal.
  - apply map_ext_in. intros i Hi. apply in_seq in Hi. rewrite (nanmean_shares (fun n => missing_cell (cf n i)) (fun n => says (cf n i) (pred n i))).
    f_equal; apply tally_ext; intros n Hn; apply in_seq in Hn; [rewrite chose_grid by lia; apply says_and|rewrite seen_grid by lia; reflexivity].
  - apply map_ext_in. intros n Hn. apply in_seq in Hn. rewrite (nanmean_shares (fun i => missing_cell (cf n i)) (fun i => says (cf n i) (pred n i))).
    f_equal; apply tally_ext; intros i Hi; apply in_seq in Hi; [rewrite chose_grid by lia; apply says_and|rewrite seen_grid by lia; reflexivity].
  - rewrite (nanmean_shares (fun c => missing_cell (cf (fst c) (snd c))) (fun c => says (cf (fst c) (snd c)) (pred (fst c) (snd c)))).
    f_equal; apply tally_ext; intros [n i] Hc; apply in_prod_iff in Hc as [Hn Hi]; apply in_seq in Hn; apply in_seq in Hi; cbn [fst snd];
      [rewrite chose_grid by lia; apply says_and|rewrite seen_grid by lia; reflexivity].
Qed.
