(** Missing answers as averages. *)
From Coq Require Import Lra.
From Verif Require Import Base BaseFacts RBase RFacts M_Data M_Est P_Suff1 S_Est S_Miss.
Import List.
Local Open Scope R_scope.

Lemma rsum_scal {A} (c : R) (f : A -> R) l : rsum (map (fun x => c * f x) l) = c * rsum (map f l).
Proof. induction l as [|x l IH]; cbn [map rsum]; [ring|rewrite IH; ring]. Qed.
Lemma rsum_plus {A} (f g : A -> R) l : rsum (map (fun x => f x + g x) l) = rsum (map f l) + rsum (map g l).
Proof. induction l as [|x l IH]; cbn [map rsum]; [ring|rewrite IH; ring]. Qed.
Lemma rsum_ext {A} (f g : A -> R) l : (forall x, In x l -> f x = g x) -> rsum (map f l) = rsum (map g l).
Proof. intro H. f_equal. now apply map_ext_in. Qed.
Lemma rsum_swap {A B} (f : A -> B -> R) l l' : rsum (map (fun a => rsum (map (f a) l')) l) = rsum (map (fun b => rsum (map (fun a => f a b) l)) l').
Proof.
  induction l as [|a l IH]; cbn [map rsum].
  - induction l' as [|b l' IH']; cbn [map rsum]; [reflexivity|rewrite <- IH'; ring].
  - rewrite IH, <- rsum_plus. reflexivity.
Qed.
Lemma rsum_positive {A} (f : A -> R) l : l <> [] -> (forall x, In x l -> 0 < f x) -> 0 < rsum (map f l).
Proof.
  intros Hn H. destruct l as [|a l]; [congruence|]. cbn [map rsum]. pose proof (H a (or_introl eq_refl)).
  assert (0 <= rsum (map f l)); [|lra]. clear Hn. assert (H' : forall x, In x l -> 0 < f x) by (intros; apply H; now right). clear H. induction l as [|b l IH]; cbn [map rsum]; [lra|].
  pose proof (H' b (or_introl eq_refl)). assert (0 <= rsum (map f l)) by (apply IH; intros; apply H'; now right). lra.
Qed.
Lemma rsum_concat {A B} (f : B -> R) (g : A -> list B) l : rsum (map f (concat (map g l))) = rsum (map (fun a => rsum (map f (g a))) l).
Proof. induction l as [|a l IH]; [reflexivity|]. cbn [map concat rsum]. now rewrite map_app, rsum_app, IH. Qed.
Lemma answer_of_nat k : answer (Some (Z.of_nat k)) = Some k.
Proof. cbn [answer]. destruct (Z.eqb_spec (Z.of_nat k) (-1)); [lia|]. now rewrite Nat2Z.id. Qed.

Lemma completions_total cats fill row : forall p t, length row = length cats -> (forall i, (i < length cats)%nat -> sumn (nth i cats O) (p t i) = 1) ->
  rsum (map (likelihood p t) (completions cats fill row)) = likelihood p t row.
Proof.
  revert fill row. induction cats as [|K cats IH]; intros fill row p t HL HS; [cbn [completions map rsum]; ring|]. destruct row as [|c row]; [discriminate|]. destruct fill as [|f fill]; [cbn [completions map rsum]; ring|].
  set (q := fun (t : list R) i k => p t (S i) k). assert (HL' : length row = length cats) by (cbn in HL; lia).
  assert (HS' : forall i, (i < length cats)%nat -> sumn (nth i cats O) (q t i) = 1) by (intros i Hi; apply (HS (S i)); cbn; lia).
  assert (ONE : forall c', rsum (map (likelihood p t) (map (cons c') (completions cats fill row))) = match answer c' with None => 1 | Some k => p t O k end * likelihood q t row).
  { intro c'. rewrite map_map. rewrite (rsum_ext _ (fun r => match answer c' with None => 1 | Some k => p t O k end * likelihood q t r)) by (intros r _; apply likelihood_cons). rewrite rsum_scal. f_equal. exact (IH fill row q t HL' HS'). }
  cbn [completions]. rewrite (likelihood_cons p t c row). fold q. destruct (answer c) as [k|] eqn:Ec; [rewrite ONE, Ec; reflexivity|]. destruct f; [|rewrite ONE, Ec; reflexivity].
  rewrite rsum_concat. rewrite (rsum_ext _ (fun k => likelihood q t row * p t O k)) by (intros k _; rewrite ONE, answer_of_nat; ring). rewrite rsum_scal, rsum_map_seq. cbn [Nat.add].
  pose proof (HS O ltac:(cbn; lia)) as H1. cbn [nth] in H1. rewrite (sumn_ext K _ (p t O)) by reflexivity. rewrite H1. ring.
Qed.
Lemma completions_legal cats fill row full : legal_row cats row -> In full (completions cats fill row) -> legal_row cats full.
Proof.
  revert fill row full. induction cats as [|K cats IH]; intros fill row full [HL H] HI; [destruct fill, row; cbn in HI; destruct HI as [<-|[]]; split; auto|]. destruct row as [|c row]; [discriminate|].
  destruct fill as [|f fill]; [cbn in HI; destruct HI as [<-|[]]; split; auto|].
  assert (LR : legal_row cats row) by (split; [cbn in HL; lia|intros i x Hx; exact (H (S i) x Hx)]).
  assert (CONS : forall c' r, (c' = None \/ c' = Some (-1)%Z \/ exists k, c' = Some (Z.of_nat k) /\ (k < K)%nat) -> legal_row cats r -> legal_row (K :: cats) (c' :: r)).
  { intros c' r Hc' [L1 L2]. split; [cbn; lia|]. intros [|i] x Hx; [cbn in Hx; injection Hx as <-; exact Hc'|exact (L2 i x Hx)]. }
  cbn [completions] in HI. assert (STAY : In full (map (cons c) (completions cats fill row)) -> legal_row (K :: cats) full).
  { intro G. apply in_map_iff in G as (r & <- & Hr). apply CONS; [exact (H O c eq_refl)|exact (IH fill row r LR Hr)]. }
  destruct (answer c); [now apply STAY|]. destruct f; [|now apply STAY]. apply in_concat in HI as (l & Hl & HI). apply in_map_iff in Hl as (k & <- & Hk). apply in_map_iff in HI as (r & <- & Hr). apply in_seq in Hk.
  apply CONS; [right; right; exists k; split; [reflexivity|lia]|exact (IH fill row r LR Hr)].
Qed.
Lemma completions_some cats fill row : Forall (fun K => (1 <= K)%nat) cats -> completions cats fill row <> [].
Proof.
  revert fill row. induction cats as [|K cats IH]; intros fill row HF; [destruct fill, row; discriminate|]. destruct fill as [|f fill]; [destruct row; discriminate|]. destruct row as [|c row]; [discriminate|]. cbn [completions].
  pose proof (IH fill row (Forall_inv_tail HF)) as HN. pose proof (Forall_inv HF) as HK. cbv beta in HK.
  assert (A : forall x, map (cons x) (completions cats fill row) <> []) by (intros x E; apply map_eq_nil in E; contradiction).
  destruct (answer c); [apply A|]. destruct f; [|apply A]. destruct K as [|K]; [lia|]. cbn [seq map concat]. intro E. apply app_eq_nil in E as [E _]. exact (A _ E).
Qed.
Section Average.
  Variables (p : list R -> nat -> nat -> R) (grid : list (list R)) (prior : list R -> R) (row : list cell) (fulls : list (list cell)).
  Hypotheses (Hg : grid <> []) (Hp : forall t, 0 < prior t) (Hrow : forall t, In t grid -> 0 < likelihood p t row) (Hfull : forall t full, In t grid -> In full fulls -> 0 < likelihood p t full).
  Hypothesis Hsum : forall t, In t grid -> rsum (map (likelihood p t) fulls) = likelihood p t row.
  Lemma weight_positive r : (forall t, In t grid -> 0 < likelihood p t r) -> 0 < rsum (map (fun t => prior t * likelihood p t r) grid).
  Proof. intro H. apply rsum_positive; [exact Hg|]. intros t Ht. apply Rmult_lt_0_compat; auto. Qed.
  Lemma predicted_positive full : In full fulls -> 0 < predicted p grid prior row full.
  Proof. intro H. apply Rdiv_lt_0_compat; apply weight_positive; auto. Qed.
  Lemma sum_of (h : list R -> R) : rsum (map (fun full => rsum (map (fun t => h t * (prior t * likelihood p t full)) grid)) fulls) = rsum (map (fun t => h t * (prior t * likelihood p t row)) grid).
  Proof.
    rewrite rsum_swap. apply rsum_ext. intros t Ht. rewrite (rsum_ext _ (fun full => (h t * prior t) * likelihood p t full)) by (intros; ring). rewrite rsum_scal, (Hsum t Ht). ring.
  Qed.
  Lemma predicted_total : rsum (map (predicted p grid prior row) fulls) = 1.
  Proof.
    unfold predicted. set (W := rsum (map (fun t => prior t * likelihood p t row) grid)). assert (0 < W) by (apply weight_positive; auto).
    rewrite (rsum_ext _ (fun full => / W * rsum (map (fun t => 1 * (prior t * likelihood p t full)) grid))) by (intros full _; unfold Rdiv; rewrite Rmult_comm; f_equal; apply rsum_ext; intros; ring).
    rewrite rsum_scal, (sum_of (fun _ => 1)). rewrite (rsum_ext _ (fun t => prior t * likelihood p t row)) by (intros; ring). fold W. field. lra.
  Qed.
  Lemma average d : posterior_mean p grid prior row d = rsum (map (fun full => predicted p grid prior row full * posterior_mean p grid prior full d) fulls).
  Proof.
    unfold predicted, posterior_mean. set (W := rsum (map (fun t => prior t * likelihood p t row) grid)). assert (0 < W) by (apply weight_positive; auto).
    rewrite (rsum_ext _ (fun full => / W * rsum (map (fun t => nth d t 0 * (prior t * likelihood p t full)) grid))).
    - rewrite rsum_scal, sum_of. unfold Rdiv. ring.
    - intros full HI. assert (0 < rsum (map (fun t => prior t * likelihood p t full) grid)) by (apply weight_positive; auto). field. split; lra.
  Qed.
End Average.
Lemma weighted_between {A} (c f : A -> R) l lo hi : (forall x, In x l -> 0 < c x) -> rsum (map c l) = 1 -> (forall x, In x l -> lo <= f x <= hi) -> lo <= rsum (map (fun x => c x * f x) l) <= hi.
Proof.
  intros Hc H1 Hf. assert (G : forall l, (forall x, In x l -> 0 < c x) -> (forall x, In x l -> lo <= f x <= hi) -> lo * rsum (map c l) <= rsum (map (fun x => c x * f x) l) <= hi * rsum (map c l)).
  { clear. induction l as [|x l IH]; intros Hc Hf; cbn [map rsum]; [lra|]. pose proof (Hc x (or_introl eq_refl)). pose proof (Hf x (or_introl eq_refl)). destruct IH as [I1 I2]; [intros; apply Hc; now right|intros; apply Hf; now right|]. nra. }
  specialize (G l Hc Hf). rewrite H1 in G. lra.
Qed.
