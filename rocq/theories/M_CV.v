(** Model of data splitting and cross-validation (utils.py).  Definitions only. *)
From Coq Require Import QArith Qround String.
From Verif Require Import Base.
Local Close Scope Q_scope.
Local Open Scope list_scope.

(** [data[indices]] for a 1-D index tensor. Used at utils.py:18 and 549. *)
Definition index_rows {A} (idx : list nat) (data : list A) : list A :=
  flat_map (fun i => match nth_error data i with Some x => [x] | None => [] end) idx.

(** Python [int(x)] for a nonnegative or negative rational: truncation toward zero. Used at utils.py:553. *)
Definition py_int (q : Q) : Z := if Qle_bool 0 q then Qfloor q else Qceiling q.

(** split_data, utils.py:519-557.  [perm] is the drawn permutation, used when [shuffle].
    Simplification: the product [n * train_ratio] is exact (a rational) instead of a double. *)
Definition split_data {A} (perm : list nat) (data : list A) (ratio : Q) (shuffle : bool)
  : list A * list A :=
  let shuffled := if shuffle then index_rows perm data else data in
  let train_size := py_int (inject_Z (Z.of_nat (length data)) * ratio) in
  (take train_size shuffled, drop train_size shuffled).

(** _prepare_cross_validation_data, utils.py:16-19. *)
Definition prepare_folds {A} (perm : list nat) (data : list A) (k : nat) : result (list (list A)) :=
  match k with
  | O => Err RuntimeError
  | S _ => Ok (chunk k (index_rows perm data))
  end.

(** [train_data] of fold [i], utils.py:172-173: all folds but the i-th, concatenated; [torch.cat]
    of an empty list raises. *)
Definition other_folds {A} (folds : list (list A)) (i : nat) : list (list A) :=
  flat_map (fun jx => if fst jx =? i then [] else [snd jx]) (combine (seq 0 (length folds)) folds).
(** utils.py:173. *)
Definition train_of {A} (folds : list (list A)) (i : nat) : result (list A) :=
  match other_folds folds i with
  | [] => Err RuntimeError
  | l => Ok (concat l)
  end.

(** The fold loop of _cv_param_combination, utils.py:171-189 with _cv_fold, utils.py:204-211.
    [P] is the state of the model object, which is *not* reset between folds; [fit] and [score] are
    irt_model.fit and irt_model.evaluate.log_likelihood.  The result lists, per fold, the model state
    that was evaluated, the validation fold and its score, and ends with the model's last state. *)
Section CV.
  Context {P A S : Type}.
  Variable fit : P -> list A -> result P.
  Variable score : P -> list A -> result S.
  Fixpoint cv_loop (folds todo : list (list A)) (i : nat) (p : P)
    : result (list (P * list A * S) * P) :=
    match todo with
    | [] => Ok ([], p)
    | v :: todo' =>
        bind (train_of folds i) (fun tr =>
        bind (fit p tr) (fun p' =>
        bind (score p' v) (fun s =>
        bind (cv_loop folds todo' (Datatypes.S i) p') (fun '(rest, pe) =>
        Ok ((p', v, s) :: rest, pe)))))
    end.
  (** utils.py:167-199, up to the averaging. *)
  Definition cv_param_combination (folds : list (list A)) (p : P) := cv_loop folds folds 0 p.
End CV.

(** Averaging, utils.py:192-197: values are numbers or not; [sum] starts from the integer 0, so a
    non-number raises TypeError; the division is by the number of folds. *)
Inductive pval := PNum (q : Q) | PStr (s : string).
(** sum(d[k] for d in results), utils.py:197. *)
Fixpoint sum_pvals (l : list pval) : result Q :=
  match l with
  | [] => Ok 0%Q
  | PNum q :: l' => rmap (fun s => (q + s)%Q) (sum_pvals l')
  | PStr _ :: _ => Err TypeError
  end.
(** utils.py:197. *)
Definition average_pvals (l : list pval) : result Q :=
  match l with
  | [] => Err ZeroDivisionError
  | _ => rmap (fun s => (s / inject_Z (Z.of_nat (length l)))%Q) (sum_pvals l)
  end.

(** itertools.product over lists. Used at utils.py:23, 270 and 271. *)
Fixpoint product {V} (ls : list (list V)) : list (list V) :=
  match ls with
  | [] => [[]]
  | l :: ls' => flat_map (fun x => map (cons x) (product ls')) l
  end.

(** Python dict as association list (first match is the value), [d[k] = v] and [d.update]. Used at utils.py:21-31. *)
Definition dict (V : Type) := list (string * V).
(** d[k] = v, utils.py:26. *)
Fixpoint dict_set {V} (d : dict V) (k : string) (v : V) : dict V :=
  match d with
  | [] => [(k, v)]
  | (k', v') :: d' => if String.eqb k' k then (k, v) :: d' else (k', v') :: dict_set d' k v
  end.
(** param_dict.update(kwargs), utils.py:30. *)
Definition dict_update {V} (d e : dict V) : dict V := fold_left (fun acc kv => dict_set acc (fst kv) (snd kv)) e d.
(** d[k], as at utils.py:197. *)
Fixpoint dict_get {V} (d : dict V) (k : string) : option V :=
  match d with [] => None | (k', v) :: d' => if String.eqb k' k then Some v else dict_get d' k end.

(** _create_param_grid, utils.py:21-31. *)
Definition create_param_grid {V} (grid : list (string * list V)) (kwargs : dict V) : list (dict V) :=
  map (fun comb => dict_update (combine (map fst grid) comb) kwargs) (product (map snd grid)).

(** _run_multiprocessing, utils.py:123-152, with the number of torch threads as state.
    [start] is the outcome of mp.set_start_method, [copy] of deep-copying the jobs; [pool t] is the
    outcome of the worker pool started while [t] threads are set; [sequential t] the outcome of
    _run_sequential run while [t] threads are set.  [inl] = exception caught by [except Exception],
    [inr] = other BaseException (e.g. KeyboardInterrupt), which is not caught.
    Result: outcome and number of threads afterwards. *)
Inductive raised := Exc (e : exn) | BaseExc.
(** What a call returns or raises, utils.py:127-152. *)
Inductive outcome (R : Type) := Ret (r : R) | Raise (x : raised).
Arguments Ret {R} _.
Arguments Raise {R} _.
(** utils.py:123-152. *)
Definition run_multiprocessing {R} (threads : nat) (cpus njobs : nat) (cores : option nat)
  (start copy : option raised) (pool : nat -> outcome R) (sequential : nat -> outcome R)
  : outcome R * nat :=
  let cores := match cores with Some c => c | None => Nat.min cpus njobs end in
  let inner : outcome R * nat :=
    match start with
    | Some x => (Raise x, threads)
    | None =>
        match copy with
        | Some x => (Raise x, threads)
        | None =>
            let original := threads in
            let '(out, _) :=
              match cores with
              | O => (Raise (Exc ZeroDivisionError), threads)
              | _ => let t := Nat.max 1 (original / cores) in (pool t, t)
              end in
            (out, original)
        end
    end in
  match inner with
  | (Ret r, t) => (Ret r, t)
  | (Raise (Exc _), t) => (sequential t, t)
  | (Raise BaseExc, t) => (Raise BaseExc, t)
  end.

(** gauss_hermite, utils.py:265-276 for a given 1-D rule: the grid of point vectors and the products
    of weights (before the affine change of variables).  Weights in Q; the 1-D nodes are an input. *)
Definition gh_grid {X} (nodes : list X) (dim : nat) : list (list X) := product (repeat nodes dim).
(** torch.prod, utils.py:271. *)
Definition qprod (l : list Q) : Q := fold_right Qmult 1%Q l.
(** utils.py:271. *)
Definition gh_weights (ws : list Q) (dim : nat) : list Q := map qprod (product (repeat ws dim)).
