(** Model of fitting several models in a pool of processes, irtorch/utils.py.  Definitions only. *)
From Verif Require Import Base.
Import List.

(** Python objects: models (their parameters and the object their attribute [algorithm] refers to) and algorithms.
    [M], [A] and [D] are the states of models and algorithms and the training data.
    The arguments of fit_multiple_models_cpu, utils.py:460-466, and the attribute set at base_irt_model.py:116. *)
Record heap (M A : Type) := Heap { h_models : list (M * option nat); h_algorithms : list A }.
Arguments Heap {M A} _ _.
Arguments h_models {M A} _.
Arguments h_algorithms {M A} _.

Section multi.
Context {M A D : Type}.
(** What [algorithm.fit(model, train_data, ...)] makes of a model and of itself.  Simplification: a function of the two and
    the data; the random generator of the worker is not part of it. *)
Variable fit : M -> A -> D -> result (M * A).

(** The keyword arguments: the algorithm, if one was passed, and whether [device] was passed. **kwargs of utils.py:464, 506 and 512-516. *)
Record fit_kwargs := Kwargs { kw_algorithm : option nat; kw_device : bool }.

(** _fit_model, utils.py:512-517, with BaseIRTModel.fit, base_irt_model.py:97-116.  A second [device] or a missing
    [algorithm] is a TypeError of the call. *)
Definition fit_model (data : D) (kw : fit_kwargs) (h : heap M A) (model : nat) : result (heap M A) :=
  if kw_device kw then Err TypeError
  else match kw_algorithm kw with
  | None => Err TypeError
  | Some a =>
      match nth_error (h_models h) model, nth_error (h_algorithms h) a with
      | Some (m, _), Some al =>
          bind (fit m al data) (fun ma => Ok (Heap (upd model (fst ma, Some a) (h_models h)) (upd a (snd ma) (h_algorithms h))))
      | _, _ => Err OtherError
      end
  end.

(** One task of [Pool.starmap]: a chunk of the calls, pickled together and run one after the other by one worker.  Objects
    that are the same in the caller are the same in the copy.  Simplification: the copy has all the caller's objects at the
    same addresses; those no call of the chunk refers to are not used. utils.py:505-506. *)
Fixpoint run_chunk (data : D) (kw : fit_kwargs) (h : heap M A) (chunk : list nat) : result (heap M A) :=
  match chunk with
  | [] => Ok h
  | m :: rest => bind (fit_model data kw h m) (fun h' => run_chunk data kw h' rest)
  end.
(** The results of a chunk come back together: the objects of the worker become new objects of the caller. utils.py:506-510. *)
Definition receive (h w : heap M A) : heap M A :=
  let shift := fun o => option_map (fun a => length (h_algorithms h) + a) o in
  Heap (h_models h ++ map (fun mo => (fst mo, shift (snd mo))) (h_models w)) (h_algorithms h ++ h_algorithms w).
(** All chunks in order, utils.py:506-510. *)
Fixpoint receive_all (h : heap M A) (outs : list (list nat * heap M A)) : list nat * heap M A :=
  match outs with
  | [] => ([], h)
  | (chunk, w) :: rest =>
      let r := receive_all (receive h w) rest in
      (map (fun m => length (h_models h) + m) chunk ++ fst r, snd r)
  end.

(** [Pool._map_async]: the size of a chunk for [n] calls and [p] processes. No chunk size is passed at utils.py:506. *)
Definition chunk_size (n p : nat) : nat := n / (4 * p) + (if n mod (4 * p) =? 0 then 0 else 1).
(** [Pool.starmap]: the outcome of chunk [k] is an exception if pickling it fails ([transport k]) or a call raises; the first
    failed chunk to arrive, in the order [arrival], gives the exception. utils.py:505-506. *)
Definition starmap (data : D) (kw : fit_kwargs) (transport : nat -> option exn) (arrival : list nat) (p : nat) (h : heap M A) (models : list nat)
    : result (list nat * heap M A) :=
  let chunks := blocks (chunk_size (length models) p) models in
  let outs := mapi (fun k c => match transport k with Some e => Err e | None => run_chunk data kw h c end) chunks in
  let failed := flat_map (fun k => match nth_error outs k with Some (Err e) => [e] | _ => [] end) arrival in
  match failed with
  | e :: _ => Err e
  | [] => Ok (receive_all h (flat_map (fun co => match snd co with Ok w => [(fst co, w)] | Err _ => [] end) (combine chunks outs)))
  end.

(** fit_multiple_models_cpu, utils.py:497-510: the outcome and the number of torch threads afterwards.  [Pool] refuses zero
    processes. *)
Definition fit_multiple (data : D) (kw : fit_kwargs) (transport : nat -> option exn) (arrival : list nat) (cpus threads : nat) (cores : option nat)
    (h : heap M A) (models : list nat) : result (list nat * heap M A) * nat :=
  let p := match cores with Some c => c | None => Nat.min (length models) cpus end in
  let original := threads in
  let '(out, _) := match p with O => (Err ValueError, 1) | _ => (starmap data kw transport arrival p h models, 1) end in
  (out, original).
End multi.
