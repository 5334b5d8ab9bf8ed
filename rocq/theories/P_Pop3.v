(** Directions from the regression of expected scores on one latent variable. *)
From Verif Require Import Base BaseFacts RBase RFacts M_Logit S_Logit P_Logit P_Logit2 P_Logit3 P_Logit4 M_Lik M_Mono M_Scale S_Scale M_Pop S_Pop P_Pop1 P_Pop2 P_Stat1.
Local Open Scope R_scope.

Lemma mapM_all {A B} (f : A -> result B) l : (forall x, In x l -> exists y, f x = Ok y) -> exists ys, mapM f l = Ok ys /\ length ys = length l /\ forall k x, nth_error l k = Some x -> exists y, nth_error ys k = Some y /\ f x = Ok y.
Proof.
  induction l as [|a l IH]; intro H; [exists []; repeat split; intros [|k] x Hx; discriminate|].
  destruct (H a (or_introl eq_refl)) as (b & Hb). destruct IH as (ys & E & L & G); [intros x Hx; apply H; now right|].
  exists (b :: ys). cbn [mapM]. rewrite Hb. cbn [bind]. rewrite E. cbn [bind]. split; [reflexivity|]. split; [cbn [length]; lia|].
  intros [|k] x Hx; [exists b; split; [reflexivity|]; cbn in Hx; congruence|]. apply G. exact Hx.
Qed.

Lemma regression_total inv lv x (ys : list (option R)) W : length ys = length x -> inv (gram (S lv) (design x)) = Ok W ->
  exists w, linear_regression inv lv x ys = Ok w /\ length w = S lv.
Proof.
  intros Hy HW. unfold linear_regression. rewrite design_length, Hy, Nat.eqb_refl, HW. cbn [bind]. eexists; split; [reflexivity|]. now rewrite map_length, seq_length.
Qed.

Lemma base_directions_at inv nan items lv es thetas W i y :
  length es = length thetas -> (i < items)%nat ->
  inv (gram (S lv) (design thetas)) = Ok W -> inverse_matrix (S lv) (gram (S lv) (design thetas)) W ->
  (forall r, (r < length thetas)%nat -> nth i (nth r es []) None = Some (y r)) ->
  exists dirs w, base_directions inv nan items lv (Ok es) thetas = Ok dirs /\ length dirs = items /\
    normal_equations lv thetas y w /\ forall d, (d < lv)%nat -> at2 dirs i d = Some (rsign (w (S d))).
Proof.
  intros Hl Hi HW HI Hy. unfold base_directions. cbn [bind].
  set (col := fun i => map (fun row => nth i row None) es).
  destruct (mapM_all (fun i => bind (linear_regression inv lv thetas (col i)) (fun w => Ok (map (fun v : option R => match v with Some r => rsign r | None => nan end) (skipn 1 w)))) (seq 0 items)) as (dirs & E & L & G).
  { intros k Hk. destruct (regression_total inv lv thetas (col k) W) as (w & Ew & _); [unfold col; now rewrite map_length|exact HW|]. rewrite Ew. cbn [bind]. eauto. }
  assert (Ec : col i = map Some (map y (seq 0 (length thetas)))).
  { apply nth_error_ext. intro r. unfold col. rewrite !nth_error_map. destruct (Nat.lt_ge_cases r (length thetas)) as [Hr|Hr].
    - rewrite (nth_error_nth_lt es r []) by lia. rewrite nth_error_seq by auto. cbn [option_map Nat.add]. now rewrite Hy.
    - rewrite (proj2 (nth_error_None _ _)) by lia. symmetry. rewrite (proj2 (nth_error_None (seq 0 (length thetas)) r)) by (rewrite seq_length; lia). reflexivity. }
  destruct (regression_solves inv lv thetas (map y (seq 0 (length thetas))) W) as (w & Ew & HN); [now rewrite map_length, seq_length|exact HW|exact HI|].
  exists dirs, w. split; [exact E|]. split; [now rewrite L, seq_length|]. split.
  - intros j Hj. rewrite <- (HN j Hj). apply sumn_ext. intros r Hr. now rewrite nth_map_seq by auto.
  - intros d Hd. destruct (G i i) as (row & Hrow & Er); [rewrite nth_error_seq by auto; reflexivity|].
    rewrite Ec in Er. change (list (option R)) with (list (option R)) in Er. rewrite Ew in Er. cbn [bind] in Er. assert (Er' : row = map (fun v : option R => match v with Some r => rsign r | None => nan end) (skipn 1 (map (fun i => Some (w i)) (seq 0 (S lv))))) by congruence.
    unfold at2. rewrite Hrow, Er'. rewrite nth_error_map, nth_error_skipn_add, nth_error_map_seq by lia. reflexivity.
Qed.

(** The sign of the slope. *)
Lemma slope_sign x y w k j : Forall (fun t => length t = 1%nat) x -> normal_equations 1 x y w ->
  let X := fun r => nth 0 (nth r x []) 0 in let N := length x in
  (k < N)%nat -> (j < N)%nat -> X k <> X j ->
  ((forall a b, (a < N)%nat -> (b < N)%nat -> X a < X b -> y a <= y b) -> (exists a b, (a < N)%nat /\ (b < N)%nat /\ X a < X b /\ y a < y b) -> rsign (w 1%nat) = 1%Z) /\
  ((forall a b, (a < N)%nat -> (b < N)%nat -> X a < X b -> y b <= y a) -> (exists a b, (a < N)%nat /\ (b < N)%nat /\ X a < X b /\ y b < y a) -> rsign (w 1%nat) = (-1)%Z) /\
  ((forall a b, (a < N)%nat -> (b < N)%nat -> y a = y b) -> rsign (w 1%nat) = 0%Z).
Proof.
  intros HF HN X N Hk Hj Hne. pose proof (slope_equation x y w HF HN) as HE. cbv zeta in HE. fold X N in HE.
  pose proof (spread_pos N X k j Hk Hj Hne) as HD.
  set (D := INR N * sumn N (fun r => X r * X r) - sumn N X * sumn N X) in *.
  split; [|split].
  - intros Hm (a & b & Ha & Hb & Hab & Hy).
    assert (HC : 0 < INR N * sumn N (fun r => X r * y r) - sumn N X * sumn N y).
    { apply (covariance_pos N X y b a); auto; [|nra]. intros c d Hc Hd.
      destruct (Rtotal_order (X c) (X d)) as [L|[E|L]]; [specialize (Hm c d Hc Hd L); nra|rewrite E; lra|specialize (Hm d c Hd Hc L); nra]. }
    rewrite <- HE in HC. assert (0 < w 1%nat) by (destruct (Rlt_le_dec 0 (w 1%nat)); [auto|nra]).
    destruct (rsign_cases (w 1%nat)) as [[E _]|[[_ H']|[_ H']]]; [exact E|lra|lra].
  - intros Hm (a & b & Ha & Hb & Hab & Hy).
    assert (HC : 0 < INR N * sumn N (fun r => X r * - y r) - sumn N X * sumn N (fun r => - y r)).
    { apply (covariance_pos N X (fun r => - y r) b a); auto; [|nra]. intros c d Hc Hd.
      destruct (Rtotal_order (X c) (X d)) as [L|[E|L]]; [specialize (Hm c d Hc Hd L); nra|rewrite E; lra|specialize (Hm d c Hd Hc L); nra]. }
    rewrite (sumn_ext N (fun r => X r * - y r) (fun r => - (X r * y r))) in HC by (intros; ring). rewrite !sumn_opp in HC.
    assert (HC' : D * w 1%nat < 0) by (rewrite HE; lra). assert (w 1%nat < 0) by (destruct (Rlt_le_dec (w 1%nat) 0); [auto|nra]).
    destruct (rsign_cases (w 1%nat)) as [[_ H']|[[E _]|[_ H']]]; [lra|exact E|lra].
  - intros Hm.
    assert (HC : INR N * sumn N (fun r => X r * y r) - sumn N X * sumn N y = 0).
    { rewrite (sumn_ext N (fun r => X r * y r) (fun r => X r * y k)) by (intros r Hr; now rewrite (Hm r k)).
      rewrite (sumn_ext N y (fun _ => y k)) by (intros r Hr; now rewrite (Hm r k)). rewrite sumn_scal_r, sumn_const. ring. }
    rewrite HC in HE. assert (w 1%nat = 0) by nra.
    destruct (rsign_cases (w 1%nat)) as [[_ H']|[[_ H']|[E _]]]; [lra|lra|exact E].
Qed.

Lemma no_inverse x c : (forall r, (r < length x)%nat -> nth 0 (nth r x []) 0 = c) -> forall B, ~ inverse_matrix 2 (gram 2 (design x)) B.
Proof.
  intros Hc B (_ & _ & _ & H).
  pose proof (H 1%nat 0%nat ltac:(lia) ltac:(lia)) as H0. pose proof (H 1%nat 1%nat ltac:(lia) ltac:(lia)) as H1. cbn [Nat.eqb] in H0, H1.
  assert (E : forall k, (k < 2)%nat -> nth 1 (nth k (gram 2 (design x)) []) 0 = c * nth 0 (nth k (gram 2 (design x)) []) 0).
  { intros k Hk. rewrite !gram_entry by lia. rewrite <- sumn_scal. apply sumn_ext. intros r Hr. rewrite entry_0, (entry_S x r 0), (Hc r Hr) by auto. ring. }
  rewrite (sumn_ext 2 _ (fun k => c * (nth k (nth 1 B []) 0 * nth 0 (nth k (gram 2 (design x)) []) 0))) in H1 by (intros k Hk; rewrite (E k Hk); ring).
  rewrite sumn_scal, H0 in H1. lra.
Qed.
Lemma base_directions_singular inv nan items lv es thetas e : length es = length thetas -> (0 < items)%nat -> inv (gram (S lv) (design thetas)) = Err e ->
  base_directions inv nan items lv (Ok es) thetas = Err e.
Proof.
  intros Hl Hi He. unfold base_directions. cbn [bind]. destruct items as [|n]; [lia|]. cbn [seq mapM].
  unfold linear_regression at 1. rewrite map_length, design_length, Hl, Nat.eqb_refl, He. reflexivity.
Qed.
