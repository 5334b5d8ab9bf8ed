(** Vocabulary for parameters that start alike. *)
From Coq Require Import Permutation.
From Verif Require Import Base RBase M_Data M_CV M_Logit M_Lik M_Est M_Train M_Mix M_Quad M_Adam S_Logit S_Lik S_Est S_Sym.
Import List.
Local Open Scope R_scope.

(** The real number a loss stands for. *)
Definition number (l : fl) : R := match l with Some (Fin v) => v | _ => 0 end.
(** [g] is the gradient of [F] for lists of [n] numbers: every entry is the partial derivative. *)
Definition gradient (n : nat) (F : list R -> R) (g : list R -> list R) : Prop :=
  forall x, length x = n -> length (g x) = n /\ forall k, (k < n)%nat -> derivable_pt_lim (fun t => F (upd k t x)) (nth k x 0) (nth k (g x) 0).
(** Positions [pairs] hold equal numbers. *)
Definition alike (pairs : nat -> nat -> Prop) (x : list R) : Prop := forall j k, pairs j k -> nth j x 0 = nth k x 0.
(** It does not matter for [F] which one of two paired positions is changed when they are alike. *)
Definition exchangeable (n : nat) (pairs : nat -> nat -> Prop) (F : list R -> R) : Prop :=
  forall x j k t, length x = n -> alike pairs x -> pairs j k -> F (upd j t x) = F (upd k t x).

(** The parameters of a model as one list, and the model with other parameters. *)
Definition parameters (x : irt) : list R :=
  match x with
  | Opl m => opl_b m
  | Tpl m => tpl_w m ++ tpl_b m
  | Thpl m => thpl_w m ++ thpl_b m ++ thpl_g m
  | Gpc m | Grm m => p_w m ++ p_b m
  | Nrm m => nrm_w m ++ nrm_b m end.
Definition with_parameters (x : irt) (p : list R) : irt :=
  match x with
  | Opl m => Opl {| opl_items := opl_items m; opl_b := p |}
  | Tpl m => let a := length (tpl_w m) in Tpl {| tpl_lv := tpl_lv m; tpl_free := tpl_free m; tpl_w := firstn a p; tpl_b := skipn a p |}
  | Thpl m => let a := length (thpl_w m) in let b := length (thpl_b m) in
      Thpl {| thpl_lv := thpl_lv m; thpl_free := thpl_free m; thpl_w := firstn a p; thpl_b := firstn b (skipn a p); thpl_g := skipn b (skipn a p) |}
  | Gpc m => let a := length (p_w m) in Gpc {| p_cats := p_cats m; p_lv := p_lv m; p_free := p_free m; p_w := firstn a p; p_b := skipn a p |}
  | Grm m => let a := length (p_w m) in Grm {| p_cats := p_cats m; p_lv := p_lv m; p_free := p_free m; p_w := firstn a p; p_b := skipn a p |}
  | Nrm m => let a := length (nrm_w m) in Nrm {| nrm_cats := nrm_cats m; nrm_lv := nrm_lv m; nrm_rel := nrm_rel m; nrm_w := firstn a p; nrm_b := skipn a p |}
  end.
(** Slope of item [i] on latent variable [d]. *)
Definition slope_of (x : irt) (i d : nat) : R :=
  match x with
  | Opl _ => 1
  | Tpl m => slope (tpl_free m) (tpl_w m) i d
  | Thpl m => slope (thpl_free m) (thpl_w m) i d
  | Gpc m | Grm m => slope (p_free m) (p_w m) i d
  | Nrm m => 0 end.
(** Which slopes are free. *)
Definition relations (x : irt) : list (list bool) :=
  match x with Opl _ => [] | Tpl m => tpl_free m | Thpl m => thpl_free m | Gpc m | Grm m => p_free m | Nrm m => nrm_rel m end.
(** A two or three parameter model or a partial credit model. *)
Definition slope_model (x : irt) : Prop := match x with Tpl _ | Thpl _ | Gpc _ => True | _ => False end.
(** Exchange of two positions of a list. *)
Definition transpose (d e k : nat) : nat := if (k =? d)%nat then e else if (k =? e)%nat then d else k.
Definition swap {A} (d e : nat) (l : list A) (z : A) : list A := map (fun k => nth (transpose d e k) l z) (seq 0 (length l)).
(** Intercept of category [k] of item [i] and guessing parameter of item [i]. *)
Definition intercept_of (x : irt) (i k : nat) : R :=
  match x with
  | Opl m => nth i (opl_b m) 0
  | Tpl m => nth i (tpl_b m) 0
  | Thpl m => nth i (thpl_b m) 0
  | Gpc m | Grm m => intercept (p_cats m) (p_b m) i k
  | Nrm m => 0 end.
Definition guessing_of (x : irt) (i : nat) : R := match x with Thpl m => nth i (thpl_g m) 0 | _ => 0 end.
Definition categories_of (x : irt) (i : nat) : nat := match x with Gpc m | Grm m => nth i (p_cats m) O | Nrm m => nth i (nrm_cats m) O | _ => 2%nat end.
(** Items [i] and [j] have the same parameters. *)
Definition same_item (x : irt) (i j : nat) : Prop :=
  (forall d, slope_of x i d = slope_of x j d) /\ (forall k, intercept_of x i k = intercept_of x j k) /\ guessing_of x i = guessing_of x j.
(** A one, two or three parameter model or a partial credit model. *)
Definition plain_model (x : irt) : Prop := match x with Opl _ | Tpl _ | Thpl _ | Gpc _ => True | _ => False end.
(** Every item depends on latent variable [d] exactly when it depends on [e]. *)
Definition same_columns (x : irt) (d e : nat) : Prop := forall i, nth d (nth i (relations x) []) false = nth e (nth i (relations x) []) false.
(** Items [i] and [j] depend on the same latent variables and have the same number of categories. *)
Definition twins (x : irt) (i j : nat) : Prop := nth i (relations x) [] = nth j (relations x) [] /\ categories_of x i = categories_of x j.
(** The weights and points of a rule are the same when two latent variables are exchanged. *)
Definition symmetric_rule (d e : nat) (points : list (list R)) (ws : list R) : Prop := Permutation (combine ws (map (fun t => swap d e t 0) points)) (combine ws points).
(** What numpy's hermgauss promises: as many weights as nodes, all positive. *)
Definition proper_hermgauss (hermgauss : nat -> list R * list R) : Prop :=
  forall n, (0 < n)%nat -> length (fst (hermgauss n)) = n /\ length (snd (hermgauss n)) = n /\ Forall (fun w => 0 < w) (snd (hermgauss n)).
(** The covariance treats latent variables [d] and [e] alike.  (With Gauss-Hermite quadrature: the default, uncorrelated.) *)
Definition even_covariance (use_gauss_hermite : bool) (lv d e : nat) (cov : option (wide R)) : Prop :=
  match cov with
  | None => True
  | Some c => use_gauss_hermite = false /\ Forall (fun r => length r = w_cols c) (w_rows c) /\
      forall i j, (i < lv)%nat -> (j < lv)%nat -> nth (transpose d e j) (nth (transpose d e i) (w_rows c) []) 0 = nth j (nth i (w_rows c) []) 0 end.
(** [autograd] returns the gradient of the loss of every epoch: [x] is the model, [data] the answers. *)
Definition true_gradient (autograd : list (list R) -> list fl -> list R -> list R) (nanl : Z) (x : irt) (data : wide cell) (points : list (list R)) (lw : list fl) : Prop :=
  gradient (length (parameters x)) (fun p => number (step_loss (fun p => model_of nanl (with_parameters x p)) points lw data p)) (autograd points lw).
(** The answer probabilities depend on latent variables [d] and [e] through their sum only. *)
Definition only_the_sum (x : irt) (d e : nat) : Prop :=
  forall th th', length th = latents x -> length th' = latents x -> nth d th 0 + nth e th 0 = nth d th' 0 + nth e th' 0 -> (forall k, k <> d -> k <> e -> nth k th 0 = nth k th' 0) ->
  forall i k, chances x th i k = chances x th' i k.
(** The model as constructed, before fitting. *)
Definition constructed (x : irt) : Prop :=
  match x with
  | Tpl m => exists items rel, (0 < items)%nat /\ tpl_init items (tpl_lv m) rel = Ok m
  | Thpl m => exists items rel, (0 < items)%nat /\ thpl_init items (thpl_lv m) rel = Ok m
  | Gpc m => exists rel, (0 < p_items m)%nat /\ Forall (fun K => (1 <= K)%nat) (p_cats m) /\ gpc_init (p_cats m) (p_lv m) rel = Ok m
  | _ => False end.
