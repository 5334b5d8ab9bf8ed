(** Model of the B-spline models: models/monotone_b_spline.py, the basis handling of
    models/surprisal_spline.py and models/nested_logit.py (spline branch), the precomputed basis in
    estimation_algorithms/mml.py, and save_model/load_model of models/base_irt_model.py.
    Definitions only.  Simplification throughout: floats are reals. *)
From Coq Require Import String.
From Verif Require Import Base RBase M_Logit M_Mono M_Scale.
Import List.
Local Open Scope R_scope.

(** ** Basis functions *)
(** splinetorch.b_spline_basis is outside the repository; it is taken to evaluate the B-spline basis functions
    by the recursion that defines them (half-open intervals, 0/0 = 0). Called at b_spline.py:17. *)
Definition ratio (a b : R) : R := if Req_EM_T b 0 then 0 else a / b.
(** The value of basis function i of degree p at x, b_spline.py:17 (splinetorch.b_spline_basis). *)
Fixpoint bbasis (t : nat -> R) (p i : nat) (x : R) : R :=
  match p with
  | O => if Rle_dec (t i) x then if Rlt_dec x (t (S i)) then 1 else 0 else 0
  | S q => ratio (x - t i) (t (i + p)%nat - t i) * bbasis t q i x
           + ratio (t (S i + p)%nat - x) (t (S i + p)%nat - t (S i)) * bbasis t q (S i) x
  end.
(** knots.sigmoid() between degree+1 zeros and degree+1 ones, monotone_b_spline.py:78-88,
    surprisal_spline.py:83-93, nested_logit.py:117-124; None = the default knots. *)
Definition default_knots : list R := [-17/10; -7/10; 0; 7/10; 17/10].
(** The buffer [knots], monotone_b_spline.py:84-85, surprisal_spline.py:89-90, nested_logit.py:119-120. *)
Definition knot_vector (degree : nat) (knots : option (list R)) : list R :=
  repeat 0 (degree + 1) ++ map logistic (match knots with Some k => k | None => default_knots end)
  ++ repeat 1 (degree + 1).
(** len(knots) - degree - 1. monotone_b_spline.py:87, surprisal_spline.py:92, nested_logit.py:122. *)
Definition n_bases (degree : nat) (knots : list R) : nat := (length knots - degree - 1)%nat.
(** One row of BSplineBasisFunction.apply, b_spline.py:16-18. *)
Definition basis_row (degree : nat) (knots : list R) (x : R) : list R :=
  map (fun i => bbasis (fun j => nth j knots 0) degree i x) (seq 0 (n_bases degree knots)).
(** rescaled_theta.T.flatten() and view(lv, -1, n_bases), monotone_b_spline.py:134-136, 200-202
    (surprisal_spline.py:121-123, 210-212; nested_logit.py:192-194): entry [d][r] is the row of basis values of
    respondent r on latent variable d.  The view fails on an empty batch and when the number of scores is no
    multiple of lv. *)
Definition spline_basis (lv degree : nat) (knots : list R) (theta : list (list R)) : result (list (list (list R))) :=
  let rows := map (basis_row degree knots) (map logistic (concat (transpose theta))) in
  if (length rows =? 0)%nat || negb (length rows mod lv =? 0)%nat then Err RuntimeError
  else Ok (blocks (length rows / lv) rows).

(** ** MonotoneBSpline *)
(** State, monotone_b_spline.py:57-114.  [bs_by_item] is separate == "items"; [bs_coef] is coefficients
    flattened; [bs_basis] the precomputed basis. *)
Record bspl := BSpl { bs_cats : list nat; bs_lv : nat; bs_degree : nat; bs_knots : list R; bs_by_item : bool;
                      bs_coef : list R; bs_bias : list R; bs_basis : option (list (list (list R))) }.
(** self.items, base_irt_model.py:43. *)
Definition bs_items (m : bspl) : nat := length (bs_cats m).
(** self.max_item_responses, base_irt_model.py:42. *)
Definition bs_max (m : bspl) : nat := list_max (bs_cats m).
(** self.n_bases, monotone_b_spline.py:87. *)
Definition bs_n (m : bspl) : nat := n_bases (bs_degree m) (bs_knots m).
(** spline_mask, lines 96-102, flattened (its first dimension is 1): category 0 and the categories an item does not
    have are off. *)
Definition bs_mask (n : nat) (cats : list nat) : list bool :=
  let M := list_max cats in
  concat (repeat (concat (map (fun K => map (fun k => (1 <=? k)%nat && (k <? K)%nat) (seq 0 M)) cats)) n).
(** Constructor given item_categories, lines 57-114: any [separate] other than "items" means categories. *)
Definition bs_init (cats : list nat) (lv : nat) (knots : option (list R)) (degree : nat) (separate : string) : bspl :=
  let kv := knot_vector degree knots in
  let by_item := String.eqb separate "items" in
  {| bs_cats := cats; bs_lv := lv; bs_degree := degree; bs_knots := kv; bs_by_item := by_item;
     bs_coef := repeat (-5/2) (if by_item then lv * n_bases degree kv * length cats
                               else ctrue (bs_mask (n_bases degree kv) cats))%nat;
     bs_bias := repeat 0 (ctrue (free_bias cats (list_max cats))); bs_basis := None |}.
(** Cumulated coefficients: lines 140-141 (shared by the categories of an item) and 148-151. *)
Definition bs_item_coef (m : bspl) (d b i : nat) : R :=
  sumn (S b) (fun b' => softplus (nth ((d * bs_n m + b') * bs_items m + i) (bs_coef m) 0)).
(** all_coef after monotone_b_spline.py:148-151. *)
Definition bs_category_coef (m : bspl) (b i k : nat) : R :=
  let mask := bs_mask (bs_n m) (bs_cats m) in
  let all_coef := mask_scatter mask (map softplus (bs_coef m)) (repeat 0 (length mask)) in
  sumn (S b) (fun b' => nth ((b' * bs_items m + i) * bs_max m + k) all_coef 0).
(** Lines 143-147 and 153-156, for the basis values [B d b] of a respondent: einsum with the coefficients, then times
    the category or summed over the categories up to it, then summed over the latent variables. *)
Definition bs_value (m : bspl) (B : nat -> nat -> R) (i k : nat) : R :=
  if bs_by_item m
  then sumn (bs_lv m) (fun d => sumn (bs_n m) (fun b => B d b * bs_item_coef m d b i) * INR k)
  else sumn (bs_lv m) (fun d => sumn (S k) (fun c => sumn (bs_n m) (fun b => B d b * bs_category_coef m b i c))).
(** Lines 157-160: bias and -inf. *)
Definition bs_logits (m : bspl) (B : nat -> nat -> R) : list (list ext) :=
  let M := bs_max m in
  map (fun i => map (fun k =>
    if nth (i * M + k) (missing_category (bs_cats m) M) false then NInf
    else Fin (bs_value m B i k + nth (i * M + k) (full_bias (free_bias (bs_cats m) M) (bs_bias m)) 0))
    (seq 0 M)) (seq 0 (bs_items m)).
(** The whole batch: all_coef[self.spline_mask] has a mask of first dimension 1, so it raises IndexError for another
    number of latent variables (line 151). *)
Definition bs_evaluate (m : bspl) (basis : list (list (list R))) : result (list (list (list ext))) :=
  if negb (bs_by_item m) && negb (bs_lv m =? 1)%nat then Err IndexError
  else Ok (map (fun r => bs_logits m (fun d b => nth b (nth r (nth d basis []) []) 0))
               (seq 0 (length (nth 0 basis [])))).
(** forward, lines 117-161. *)
Definition bs_forward (m : bspl) (theta : list (list R)) : result (list (list (list ext))) :=
  bind (match bs_basis m with
        | Some basis => Ok basis
        | None => spline_basis (bs_lv m) (bs_degree m) (bs_knots m) theta
        end) (bs_evaluate m).
(** probabilities_from_output, lines 163-177: softmax over the last dimension. *)
Definition bs_probabilities (m : bspl) (theta : list (list R)) : result (list (list (list (option R)))) :=
  rmap (map (map softmax)) (bs_forward m theta).
(** item_theta_relationship_directions, lines 180-189. *)
Definition bs_directions (m : bspl) : list (list Z) := repeat (repeat 1%Z (bs_lv m)) (bs_items m).
(** precompute_basis, lines 192-202. *)
Definition with_basis (b : option (list (list (list R)))) (m : bspl) : bspl :=
  BSpl (bs_cats m) (bs_lv m) (bs_degree m) (bs_knots m) (bs_by_item m) (bs_coef m) (bs_bias m) b.
(** Other values of coefficients and bias_param (monotone_b_spline.py:91, 103, 114): an optimizer step or load_state_dict. *)
Definition with_parameters (p : list R * list R) (m : bspl) : bspl :=
  BSpl (bs_cats m) (bs_lv m) (bs_degree m) (bs_knots m) (bs_by_item m) (fst p) (snd p) (bs_basis m).
(** monotone_b_spline.py:200-202. *)
Definition precompute (theta : list (list R)) (m : bspl) : result bspl :=
  rmap (fun b => with_basis (Some b) m) (spline_basis (bs_lv m) (bs_degree m) (bs_knots m) theta).

(** ** MML._training_loop around the epochs, mml.py:184-236 *)
(** [train] are the epochs (194-226): they read the model through its forward pass and leave new parameters, and may
    raise (also by an interrupt), leaving the parameters reached.  The basis of the points, each repeated for the [n]
    respondents (185), is precomputed before (190-191) and dropped
    after (228-230); line 233 then loads the best parameters, which [train] returns.  An exception skips both. *)
Definition mml_spline (n : nat) (points : list (list R)) (train : bspl -> (list R * list R) * option exn) (m : bspl)
  : result unit * bspl :=
  match precompute (repeat_interleave n points) m with
  | Err e => (Err e, m)
  | Ok m1 =>
      match train m1 with
      | (p, None) => (Ok tt, with_basis None (with_parameters p m1))
      | (p, Some e) => (Err e, with_parameters p m1)
      end
  end.
(** Everything else that changes a model: another algorithm's fit, or load_model, sets parameters only.
    (mml.py:184-236, base_irt_model.py:987-1001.) *)
Inductive spline_op : Type :=
| MmlFit (n : nat) (points : list (list R)) (train : bspl -> (list R * list R) * option exn)
| SetParameters (p : list R * list R).
(** One such call, mml.py:184-236 or base_irt_model.py:987-1001. *)
Definition spline_step (o : spline_op) (m : bspl) : result unit * bspl :=
  match o with MmlFit n points train => mml_spline n points train m | SetParameters p => (Ok tt, with_parameters p m) end.
(** A session: later calls go on after a failed one. (mml.py:184-236, base_irt_model.py:987-1001.) *)
Fixpoint spline_run (ops : list spline_op) (m : bspl) : list (result unit) * bspl :=
  match ops with
  | [] => ([], m)
  | o :: ops' => let '(r, m') := spline_step o m in let '(rs, m'') := spline_run ops' m' in (r :: rs, m'')
  end.

(** ** SurprisalSpline with its basis, surprisal_spline.py:83-137 *)
(** [ss_coef i d b c] are the coefficients by item; the mask and the cumulation are in [surprisal]. (surprisal_spline.py:57-102.) *)
Record sspl := SSpl { ss_cats : list nat; ss_lv : nat; ss_rel : nat -> nat -> bool; ss_degree : nat; ss_knots : list R;
                      ss_coef : nat -> nat -> nat -> nat -> R; ss_basis : option (list (list (list R))) }.
(** surprisal_spline.py:125-137, for the given basis. *)
Definition ss_evaluate (m : sspl) (basis : list (list (list R))) : list (list (list R)) :=
  map (fun r => mapi (fun i K =>
         surprisal_probabilities (surprisal (ss_lv m) (n_bases (ss_degree m) (ss_knots m)) (list_max (ss_cats m)) K
                                    (ss_rel m i) (fun d b => nth b (nth r (nth d basis []) []) 0) (ss_coef m i)))
         (ss_cats m)) (seq 0 (length (nth 0 basis []))).
(** forward, surprisal_spline.py:104-137. *)
Definition ss_forward (m : sspl) (theta : list (list R)) : result (list (list (list R))) :=
  rmap (ss_evaluate m) (match ss_basis m with
                        | Some basis => Ok basis
                        | None => spline_basis (ss_lv m) (ss_degree m) (ss_knots m) theta
                        end).
(** The test in mml.py:190 and 229 names MonotoneBSpline twice and SurprisalSpline never: no basis is kept. *)
Definition mml_surprisal (train : sspl -> (nat -> nat -> nat -> nat -> R) * option exn) (m : sspl) : result unit * sspl :=
  let '(coef, failed) := train m in
  (match failed with Some e => Err e | None => Ok tt end,
   SSpl (ss_cats m) (ss_lv m) (ss_rel m) (ss_degree m) (ss_knots m) coef (ss_basis m)).

(** ** NestedLogit with spline distractors, nested_logit.py:116-135 and 188-234 *)
(** State, nested_logit.py:98-135. *)
Record nspl := NSpl { ns_cats : list nat; ns_key : list nat; ns_lv : nat; ns_rel : nat -> nat -> bool; ns_degree : nat;
                      ns_knots : list R; ns_coef : nat -> nat -> nat -> nat -> R;
                      ns_basis : option (list (list (list R))) }.
(** Lines 196-207 for an item with [K] categories: masked coefficients (125-132), einsum, sum, -inf, softmax. *)
Definition ns_conditional (m : nspl) (B : nat -> nat -> R) (i K : nat) : list (option R) :=
  softmax (map (fun k =>
    if (k <? K - 1)%nat
    then Fin (sumn (ns_lv m) (fun d => sumn (n_bases (ns_degree m) (ns_knots m)) (fun b =>
                B d b * (if ns_rel m i d && (k <? K - 1)%nat then ns_coef m i d b k else 0))))
    else NInf) (seq 0 (list_max (ns_cats m) - 1))).
(** torch.where (204) broadcasts the mask of the batch of scores with the batch of the basis; the scatter (221-234) keeps
    the rows of the scores. *)
Definition ns_evaluate (m : nspl) (n : nat) (basis : list (list (list R))) : result (list (list (list (option R)))) :=
  let nb := length (nth 0 basis []) in
  if (n =? nb)%nat || (nb =? 1)%nat || (n =? 1)%nat
  then Ok (map (fun r => mapi (ns_conditional m (fun d b => nth b (nth (if (nb =? 1)%nat then 0%nat else r) (nth d basis []) []) 0))
                              (ns_cats m)) (seq 0 n))
  else Err RuntimeError.
(** forward, with the table of the model for correct answers: per respondent and item the probabilities of a wrong and a
    right answer. nested_logit.py:160-241. *)
Definition ns_forward (m : nspl) (correct : list (list R) -> result (list (list (list (option R))))) (theta : list (list R))
  : result (list (list (list (option R)))) :=
  bind (correct theta) (fun p =>
  bind (match ns_basis m with
        | Some basis => Ok basis
        | None => spline_basis (ns_lv m) (ns_degree m) (ns_knots m) theta
        end) (fun basis =>
  rmap (nested_probabilities (list_max (ns_cats m)) (ns_key m) p) (ns_evaluate m (length theta) basis))).
(** As [mml_spline], for a NestedLogit: mml.py:190-191 and 228-230. *)
Definition mml_nested (n : nat) (points : list (list R)) (train : nspl -> (nat -> nat -> nat -> nat -> R) * option exn)
  (m : nspl) : result unit * nspl :=
  let set coef b := NSpl (ns_cats m) (ns_key m) (ns_lv m) (ns_rel m) (ns_degree m) (ns_knots m) coef b in
  match spline_basis (ns_lv m) (ns_degree m) (ns_knots m) (repeat_interleave n points) with
  | Err e => (Err e, m)
  | Ok b =>
      match train (set (ns_coef m) (Some b)) with
      | (coef, None) => (Ok tt, set coef None)
      | (coef, Some e) => (Err e, set coef (Some b))
      end
  end.

(** ** save_model and load_model, base_irt_model.py:971-1001 *)
(** A parameter or buffer: its shape and values.  [C] is everything that is not in the state dictionary and not saved
    (categories, answer key, hyperparameters), [A] algorithms, [S] lists of scales. (base_irt_model.py:971-1001.) *)
Definition tensor : Type := (list nat * list R)%type.
(** self.state_dict(), base_irt_model.py:981. *)
Definition state_dict : Type := list (string * tensor).
(** A model object, base_irt_model.py:971-1001. *)
Record object (C A S : Type) := Obj { ob_config : C; ob_state : state_dict; ob_algorithm : A; ob_scale : S }.
Arguments Obj {C A S}. Arguments ob_config {C A S}. Arguments ob_state {C A S}. Arguments ob_algorithm {C A S}. Arguments ob_scale {C A S}.
(** A file: the dictionary written, each key possibly absent. (base_irt_model.py:980-985.) *)
Record checkpoint (A S : Type) := Checkpoint { cp_state : option state_dict; cp_algorithm : option A; cp_scales : option S }.
Arguments Checkpoint {A S}. Arguments cp_state {A S}. Arguments cp_algorithm {A S}. Arguments cp_scales {A S}.
(** base_irt_model.py:971-985. *)
Definition save_model {C A S} (o : object C A S) : checkpoint A S :=
  Checkpoint (Some (ob_state o)) (Some (ob_algorithm o)) (Some (ob_scale o)).
(** torch's load_state_dict(strict=True): every own entry found in the dictionary with its shape is copied; entries
    missing, of another shape or unexpected are collected and reported by a RuntimeError afterwards. Called at base_irt_model.py:997. *)
Fixpoint lookup {V} (name : string) (l : list (string * V)) : option V :=
  match l with [] => None | (n, v) :: l' => if String.eqb n name then Some v else lookup name l' end.
(** Shapes compared by load_state_dict, base_irt_model.py:997. *)
Definition shape_eqb (a b : list nat) : bool := if list_eq_dec Nat.eq_dec a b then true else false.
(** One entry of load_state_dict: copied if found with the same shape, base_irt_model.py:997. *)
Definition load_entry (given : state_dict) (e : string * tensor) : string * tensor :=
  match lookup (fst e) given with
  | Some v => if shape_eqb (fst v) (fst (snd e)) then (fst e, v) else e
  | None => e
  end.
(** The entry is found with the same shape, base_irt_model.py:997 (strict loading). *)
Definition matches (given : state_dict) (e : string * tensor) : bool :=
  match lookup (fst e) given with Some v => shape_eqb (fst v) (fst (snd e)) | None => false end.
(** The entry of the dictionary is one of the model's, base_irt_model.py:997 (strict loading). *)
Definition expected_entry (own : state_dict) (e : string * tensor) : bool :=
  match lookup (fst e) own with Some _ => true | None => false end.
(** self.load_state_dict(checkpoint["model_state_dict"]), base_irt_model.py:997. *)
Definition load_state_dict (given own : state_dict) : result unit * state_dict :=
  (if forallb (matches given) own && forallb (expected_entry own) given then Ok tt else Err RuntimeError,
   map (load_entry given) own).
(** [file] is what torch.load finds under the path ([None]: it raises). base_irt_model.py:987-1001. *)
Definition load_model {C A S} (file : option (checkpoint A S)) (o : object C A S) : result unit * object C A S :=
  match file with
  | None => (Err OtherError, o)
  | Some cp =>
      match cp_state cp with
      | None => (Err KeyError, o)
      | Some given =>
          let '(r, st) := load_state_dict given (ob_state o) in
          match r with
          | Err e => (Err e, Obj (ob_config o) st (ob_algorithm o) (ob_scale o))
          | Ok _ => (Ok tt, Obj (ob_config o) st
                              (match cp_algorithm cp with Some a => a | None => ob_algorithm o end)
                              (match cp_scales cp with Some s => s | None => ob_scale o end))
          end
      end
  end.
