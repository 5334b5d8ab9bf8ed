(** Names of modules; the explicit form of the layer lists. *)
From Coq Require Import Reals String DecimalString DecimalNat.
From Verif Require Import Base BaseFacts RBase M_Data M_Enc S_Data S_Enc.
Import List.
Local Open Scope nat_scope.

Lemma append_inj : forall p a b, append p a = append p b -> a = b.
Proof. induction p; cbn; intros; [assumption | injection H; auto]. Qed.

Lemma numbered_inj : forall p i j, numbered p i = numbered p j -> i = j.
Proof.
  intros p i j H. apply append_inj in H.
  apply (f_equal NilEmpty.uint_of_string) in H. rewrite !NilEmpty.usu in H.
  injection H as H. apply Unsigned.to_uint_inj in H. exact H.
Qed.

Lemma digits_nonempty : forall i, NilEmpty.string_of_uint (Nat.to_uint i) <> ""%string.
Proof.
  intros i H. apply (f_equal NilEmpty.uint_of_string) in H. rewrite NilEmpty.usu in H. cbn in H.
  injection H as H. pose proof (f_equal Nat.of_uint H) as E. rewrite Unsigned.of_to in E. cbn in E. subst i. discriminate H.
Qed.

Lemma batchnorm_numbered : forall i, "batchnorm0"%string <> numbered "batchnorm0" i.
Proof.
  intros i H. apply (digits_nonempty i). apply (append_inj "batchnorm0"). symmetry. exact H.
Qed.

(** Appending a new name. *)
Lemma add_module_new : forall k x l, ~ In k (map fst l) -> add_module k x l = l ++ [(k, x)].
Proof.
  induction l as [|[k' y] l IH]; cbn; intros H; [reflexivity|].
  destruct (string_dec k k') as [E|E]; [destruct H; left; auto|].
  rewrite IH; [reflexivity|]. intros H'. apply H. right. exact H'.
Qed.

(** Replacing. *)
Lemma add_module_old : forall k x y l1 l2, ~ In k (map fst l1) -> add_module k x (l1 ++ (k, y) :: l2) = l1 ++ (k, x) :: l2.
Proof.
  induction l1 as [|[k' z] l1 IH]; cbn; intros l2 H.
  - destruct (string_dec k k); congruence.
  - destruct (string_dec k k') as [E|E]; [destruct H; left; auto|].
    rewrite IH; [reflexivity|]. intros H'. apply H. right. exact H'.
Qed.

(** Names used for layers with number below [n]. *)
Definition below (n : nat) (k : string) : Prop :=
  k = "batchnorm0"%string \/
  exists j, j < n /\ (k = numbered "linear" j \/ k = numbered "batchnorm0" j \/ k = numbered "nonlinear" j).

Lemma below_linear : forall n i, below n (numbered "linear" i) -> i < n.
Proof.
  intros n i [H|(j & Hj & [H|[H|H]])]; try discriminate H. apply numbered_inj in H. lia.
Qed.
Lemma below_nonlinear : forall n i, below n (numbered "nonlinear" i) -> i < n.
Proof.
  intros n i [H|(j & Hj & [H|[H|H]])]; try discriminate H. apply numbered_inj in H. lia.
Qed.
Lemma below_norm : forall n i, below n (numbered "batchnorm0" i) -> i < n.
Proof.
  intros n i [H|(j & Hj & [H|[H|H]])]; try discriminate H; [symmetry in H; apply batchnorm_numbered in H; contradiction|].
  apply numbered_inj in H. lia.
Qed.
Lemma below_tanh : forall n i, ~ below n (numbered "tanh" i).
Proof. intros n i [H|(j & Hj & [H|[H|H]])]; discriminate H. Qed.
Lemma below_mono : forall n m k, n <= m -> below n k -> below m k.
Proof. intros n m k H [E|(j & Hj & E)]; [left; auto | right; exists j; split; [lia | auto]]. Qed.

(** One block of the stack: linear layer [k], an optional normalisation, the nonlinearity. *)
Definition block (inp : nat) (h : list nat) (nm : nat -> option string) (k : nat) : modules :=
  (numbered "linear" k, Linear (nth k (inp :: h) 0) (nth k h 0)) ::
  match nm k with Some b => [(b, BatchNorm (nth k h 0))] | None => [] end ++ [(numbered "nonlinear" k, Nonlinear)].

Lemma input_layers_eq : forall bn inp h0 h, input_layers bn inp h0 = block inp (h0 :: h) (standard_name bn) 0.
Proof. intros [] inp h0 h; reflexivity. Qed.

Lemma nth_prev : forall inp h i, 1 <= i -> nth i (inp :: h) 0 = nth (i - 1) h 0.
Proof. intros inp h [|i] H; [lia|]. cbn [nth]. f_equal. lia. Qed.

Lemma standard_block_names : forall bn inp h n k,
  In k (map fst (flat_map (block inp h (standard_name bn)) (seq 0 n))) -> below n k.
Proof.
  intros bn inp h n k H. apply in_map_iff in H. destruct H as ((k' & y) & E & H). cbn in E. subst k'.
  apply in_flat_map in H. destruct H as (i & Hi & H). apply in_seq in Hi.
  unfold block, standard_name in H. destruct bn; cbn [In app] in H.
  - destruct H as [H|[H|[H|[]]]]; injection H as E _; subst k.
    + right. exists i. split; [lia|]. left. reflexivity.
    + destruct i; [left; reflexivity | right]. exists (S i). split; [lia|]. right. left. reflexivity.
    + right. exists i. split; [lia|]. right. right. reflexivity.
  - destruct H as [H|[H|[]]]; injection H as E _; subst k; right; exists i; (split; [lia|]);
    [left | right; right]; reflexivity.
Qed.

Lemma standard_hidden_app : forall bn inp h l i, 1 <= i -> (forall k, In k (map fst l) -> below i k) ->
  standard_hidden bn h l i = l ++ block inp h (standard_name bn) i.
Proof.
  intros bn inp h l i Hi H. unfold standard_hidden, block.
  rewrite (nth_prev inp h i Hi).
  rewrite (add_module_new (numbered "linear" i)) by (intros Hin; apply H in Hin; apply below_linear in Hin; lia).
  destruct i as [|i']; [lia|]. set (i := S i') in *.
  destruct bn; cbn [standard_name].
  - rewrite (add_module_new (numbered "batchnorm0" i)).
    2:{ rewrite map_app, in_app_iff. intros [Hin|[Hin|[]]]; [apply H in Hin; apply below_norm in Hin; lia | discriminate Hin]. }
    rewrite add_module_new.
    + unfold standard_name. subst i. rewrite <- !app_assoc. reflexivity.
    + rewrite !map_app, !in_app_iff. intros [[Hin|[Hin|[]]]|[Hin|[]]]; try discriminate Hin.
      apply H in Hin. apply below_nonlinear in Hin. lia.
  - rewrite add_module_new; [rewrite <- app_assoc; reflexivity|].
    rewrite map_app, in_app_iff. intros [Hin|[Hin|[]]]; [|discriminate Hin].
    apply H in Hin. apply below_nonlinear in Hin. lia.
Qed.

Lemma standard_stack : forall bn inp h0 t, let h := h0 :: t in
  hidden_stack (standard_hidden bn) bn inp h = Ok (flat_map (block inp h (standard_name bn)) (seq 0 (List.length h))).
Proof.
  intros bn inp h0 t h. unfold hidden_stack, h. f_equal. fold h.
  replace (List.length h - 1) with (List.length t) by (unfold h; cbn [List.length]; lia).
  replace (List.length h) with (S (List.length t)) by reflexivity.
  induction (List.length t) as [|n IH].
  - cbn [seq fold_left flat_map]. rewrite app_nil_r. apply input_layers_eq.
  - rewrite seq_S, fold_left_app, IH. cbn [fold_left]. rewrite (standard_hidden_app bn inp h).
    + rewrite (seq_S (S n)), flat_map_app. cbn [flat_map Nat.add]. rewrite app_nil_r. reflexivity.
    + lia.
    + intros k Hk. apply standard_block_names in Hk. exact Hk.
Qed.

(** The explicit form of the standard encoder. *)
Theorem standard_form : forall bn inp lv h, h <> [] ->
  standard_encoder bn inp lv h = Ok (flat_map (block inp h (standard_name bn)) (seq 0 (List.length h)) ++
    [(numbered "linear" (List.length h + 1), Linear (last h 0) lv)]).
Proof.
  intros bn inp lv [|h0 t] H; [contradiction|]. unfold standard_encoder. rewrite standard_stack. cbn [bind].
  f_equal. apply add_module_new. intros Hin. apply standard_block_names in Hin. apply below_linear in Hin. lia.
Qed.

(** The stack of the other encoders after [n] further layers: the normalisation of layer 0 has the
    size of the last of them. *)
Definition renamed_list (bn : bool) (inp : nat) (h : list nat) (n : nat) : modules :=
  (numbered "linear" 0, Linear inp (nth 0 h 0)) ::
  (if bn then [("batchnorm0"%string, BatchNorm (nth n h 0))] else []) ++
  (numbered "nonlinear" 0, Nonlinear) :: flat_map (block inp h (fun _ => None)) (seq 1 n).

Lemma renamed_names : forall bn inp h n k, In k (map fst (renamed_list bn inp h n)) -> below (S n) k.
Proof.
  intros bn inp h n k H. unfold renamed_list in H. cbn [map] in H. destruct H as [H|H].
  - subst k. right. exists 0. split; [lia | left; reflexivity].
  - rewrite map_app, in_app_iff in H. destruct H as [H|H].
    + destruct bn; cbn in H; [destruct H as [H|[]]; left; auto | contradiction].
    + cbn [map] in H. destruct H as [H|H].
      * subst k. right. exists 0. split; [lia | right; right; reflexivity].
      * apply in_map_iff in H. destruct H as ((k' & y) & E & H). cbn in E. subst k'.
        apply in_flat_map in H. destruct H as (i & Hi & H). apply in_seq in Hi.
        unfold block in H. cbn [In app] in H.
        destruct H as [H|[H|[]]]; injection H as E _; subst k; right; exists i; (split; [lia|]);
          [left | right; right]; reflexivity.
Qed.

Lemma renamed_step : forall bn inp h n,
  renamed_hidden bn h (renamed_list bn inp h n) (S n) = renamed_list bn inp h (S n).
Proof.
  intros bn inp h n. unfold renamed_hidden.
  rewrite (add_module_new (numbered "linear" (S n))) by (intros Hin; apply renamed_names in Hin; apply below_linear in Hin; lia).
  assert (Hlast : forall l, (forall k, In k (map fst l) -> below (S n) k \/ k = numbered "linear" (S n)) ->
    add_module (numbered "nonlinear" (S n)) Nonlinear l = l ++ [(numbered "nonlinear" (S n), Nonlinear)]).
  { intros l Hl. apply add_module_new. intros Hin. apply Hl in Hin. destruct Hin as [Hin|Hin]; [|discriminate Hin].
    apply below_nonlinear in Hin. lia. }
  rewrite Nat.sub_1_r. cbn [Nat.pred].
  assert (Hblk : flat_map (block inp h (fun _ => None)) (seq 1 (S n)) =
                 flat_map (block inp h (fun _ => None)) (seq 1 n) ++
                 [(numbered "linear" (S n), Linear (nth n h 0) (nth (S n) h 0)); (numbered "nonlinear" (S n), Nonlinear)]).
  { rewrite (seq_S n 1), flat_map_app. f_equal. }
  destruct bn.
  - unfold renamed_list at 1. cbn [app].
    match goal with |- context [add_module "batchnorm0" ?x (?a :: ?b :: ?c)] =>
      change (add_module "batchnorm0" x (a :: b :: c)) with (add_module "batchnorm0" x ([a] ++ b :: c)) end.
    rewrite add_module_old.
    2:{ cbn. intros [H|[]]. discriminate H. }
    rewrite Hlast.
    + unfold renamed_list. rewrite Hblk. cbn [app]. rewrite <- app_assoc. reflexivity.
    + intros k Hk. cbn [app map fst] in Hk.
      assert (Hk' : In k (map fst (renamed_list true inp h n)) \/ k = numbered "linear" (S n)).
      { unfold renamed_list. cbn [app map fst].
        destruct Hk as [Hk|[Hk|[Hk|Hk]]]; [left; left; auto | left; right; left; auto | left; right; right; left; auto |].
        rewrite map_app, in_app_iff in Hk. destruct Hk as [Hk|[Hk|[]]]; [left; right; right; right; exact Hk | right; auto]. }
      destruct Hk' as [Hk'|Hk']; [left; apply renamed_names in Hk'; exact Hk' | right; exact Hk'].
  - rewrite Hlast.
    + unfold renamed_list. rewrite Hblk. cbn [app]. rewrite <- app_assoc. reflexivity.
    + intros k Hk. rewrite map_app, in_app_iff in Hk. destruct Hk as [Hk|[Hk|[]]]; [|right; auto].
      left. apply renamed_names in Hk. exact Hk.
Qed.

Lemma renamed_stack : forall bn inp h0 t, let h := h0 :: t in
  hidden_stack (renamed_hidden bn) bn inp h = Ok (renamed_list bn inp h (List.length h - 1)).
Proof.
  intros bn inp h0 t h. unfold hidden_stack, h. f_equal. fold h.
  induction (List.length h - 1) as [|n IH].
  - cbn [seq fold_left]. unfold renamed_list. destruct bn; reflexivity.
  - rewrite seq_S, fold_left_app, IH. cbn [fold_left Nat.add]. apply renamed_step.
Qed.

Lemma nth_last_nat : forall h0 (t : list nat), nth (List.length (h0 :: t) - 1) (h0 :: t) 0 = last (h0 :: t) 0.
Proof.
  intros h0 t. cbn [List.length]. rewrite Nat.sub_1_r. cbn [Nat.pred]. revert h0.
  induction t as [|a t IH]; intros h0; [reflexivity|]. exact (IH a).
Qed.

(** With matching first and last sizes (or no normalisation) the list is made of blocks of which
    only the first is normalised. *)
Lemma renamed_blocks : forall bn inp h0 t, let h := h0 :: t in (bn = true -> last h 0 = h0) ->
  renamed_list bn inp h (List.length h - 1) = flat_map (block inp h (only_first bn)) (seq 0 (List.length h)).
Proof.
  intros bn inp h0 t h H.
  assert (E : flat_map (block inp h (fun _ => None)) (seq 1 (List.length h - 1)) =
              flat_map (block inp h (only_first bn)) (seq 1 (List.length h - 1))).
  { rewrite !flat_map_concat_map. f_equal. apply map_ext_in. intros k Hk. apply in_seq in Hk.
    destruct k; [lia|]. destruct bn; reflexivity. }
  replace (seq 0 (List.length h)) with (0 :: seq 1 (List.length h - 1)).
  2:{ unfold h. cbn [List.length seq]. f_equal. f_equal. lia. }
  cbn [flat_map]. rewrite <- E. unfold renamed_list.
  destruct bn; [|reflexivity].
  replace (nth (List.length h - 1) h 0) with h0; [reflexivity|].
  unfold h. rewrite nth_last_nat. symmetry. apply H. reflexivity.
Qed.
