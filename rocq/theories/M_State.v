(** Model of the state kept by models and algorithms: the answer key check of the constructors, the
    training data and scores stored by repeated fits, the requires-grad flags during ML/MAP scoring.
    Definitions only. *)
From Coq Require Import Reals.
From Verif Require Import Base RBase M_Data.
Local Open Scope R_scope.

(** ** Constructors: answer keys *)

(** Attributes set by BaseIRTModel.__init__, models/base_irt_model.py:30-49. *)
Record attrs := Attrs { at_lv : nat; at_cats : list Z; at_max : Z; at_items : nat; at_key : option (list Z) }.
(** Python's [max] of a list: ValueError when it is empty. models/base_irt_model.py:42. *)
Definition py_max (l : list Z) : result Z := match max_list l with Some m => Ok m | None => Err ValueError end.
(** Line 38: [all(item >= mc for item, mc in zip(item_categories, mc_correct))]; zip stops at the shorter list. *)
Definition key_within (cats key : list Z) : bool := forallb (fun p => (snd p <=? fst p)%Z) (combine cats key).
(** models/base_irt_model.py:30-49. *)
Definition base_init (lv : nat) (cats : list Z) (key : option (list Z)) : result attrs :=
  if match key with Some k => key_within cats k | None => true end
  then bind (py_max cats) (fun m => Ok (Attrs lv cats m (length cats) key))
  else Err ValueError.

(** NestedLogit.__init__, models/nested_logit.py:80 and 101-105: the base constructor, then every item's
    key entry, in turn; [mc_correct[item]] of a short list raises IndexError. *)
Definition nested_key_item (cats key : list Z) (i : nat) : result unit :=
  match nth_error key i with
  | None => Err IndexError
  | Some k => if (0 >? k)%Z || (k >=? nth i cats 0)%Z then Err ValueError else Ok tt
  end.
(** models/nested_logit.py:80 and 101-105. *)
Definition nested_init (lv : nat) (cats key : list Z) : result attrs :=
  bind (base_init lv cats (Some key)) (fun a =>
  bind (mapM (nested_key_item cats key) (seq 0 (at_items a))) (fun _ => Ok a)).

(** ** Repeated fits *)

(** Attributes train_data and training_theta_scores of an algorithm (base_irt_algorithm.py:13-16); the
    data with its number of columns. *)
Record store := Store { st_data : option (nat * list (list cell)); st_scores : option (list (list R)) }.
(** base_irt_algorithm.py:13-16. *)
Definition new_store : store := Store None None.

(** BaseIRTAlgorithm.fit, base_irt_algorithm.py:32-36, and the same lines in vae.py:84-87: torch.cat
    raises RuntimeError when the numbers of columns differ. *)
Definition append_data (d : mat) (s : store) : result store :=
  match st_data s with
  | None => Ok (Store (Some (m_cols d, m_rows d)) (st_scores s))
  | Some (c, rows) =>
      if (c =? m_cols d)%nat then Ok (Store (Some (c, rows ++ m_rows d)) (st_scores s)) else Err RuntimeError
  end.

(** A call of fit.  The outcome of training is arbitrary: [Err e] when a later step raises, otherwise
    for joint maximum likelihood the update of every starting value (its shape is kept), for the
    autoencoders the fitted encoder, applied row by row to the dataset's input, which has one row per
    respondent (M_Data.v, M_Enc.v). jml.py:30-120, mml.py:47-147, ae.py:38-165, vae.py:24-162. *)
Inductive fit_call :=
| FitJoint (d : mat) (lv : nat) (start : option (nat * list (list R))) (default : nat -> nat -> R)
           (trained : result (nat -> nat -> R -> R))
| FitMarginal (d : mat) (lv : nat) (outcome : result unit)
| FitEncoder (d : mat) (has_input : bool) (input : result (nat -> list R)) (trained : result (list R -> list R)).

(** JML.fit, jml.py:66-120: the store after the call and the outcome.  [start]: starting values with
    their number of columns (81-84); default starting values (75-80) have one row per respondent. *)
Definition set_scores (s : store) (x : list (list R)) : store := Store (st_data s) (Some x).
(** jml.py:75-84. *)
Definition jml_start (d : mat) (lv : nat) (start : option (nat * list (list R))) (default : nat -> nat -> R) : result (list (list R)) :=
  match start with
  | None => Ok (map (fun r => map (default r) (seq 0 lv)) (seq 0 (length (m_rows d))))
  | Some (c, t) => if negb (length t =? length (m_rows d))%nat then Err ValueError
                   else if negb (c =? lv)%nat then Err ValueError else Ok t
  end.
(** What the loop jml.py:154-195 makes of the scores. *)
Definition train_thetas (g : nat -> nat -> R -> R) (t : list (list R)) : list (list R) := mapi (fun r row => mapi (g r) row) t.
(** jml.py:66-120, mml.py:87-147, ae.py:89-165, vae.py:84-162. *)
Definition run_fit (c : fit_call) (s : store) : store * result unit :=
  match c with
  | FitJoint d lv start default trained =>
      match append_data d s with
      | Err e => (s, Err e)
      | Ok s1 => match jml_start d lv start default with
                 | Err e => (s1, Err e)
                 | Ok t => match trained with
                           | Err e => (set_scores s1 t, Err e)
                           | Ok g => (set_scores s1 (train_thetas g t), Ok tt)
                           end
                 end
      end
  | FitMarginal d lv outcome => (* mml.py:87-147 stores no scores *)
      match append_data d s with
      | Err e => (s, Err e)
      | Ok s1 => (s1, outcome)
      end
  | FitEncoder d has_input input trained => (* ae.py:89-165, vae.py:84-162; [has_input]: lines 125-126 of ae.py do not raise *)
      match append_data d s with
      | Err e => (s, Err e)
      | Ok s1 => if has_input then match input with
                 | Err e => (s1, Err e)
                 | Ok x => match trained with
                           | Err e => (s1, Err e)
                           | Ok enc => (set_scores s1 (map (fun r => enc (x r)) (seq 0 (length (m_rows d)))), Ok tt)
                           end
                 end else (s1, Err ValueError)
      end
  end.
(** A history of calls: an exception ends the call, not the history. Calls of base_irt_model.py:97-116. *)
Definition run_fits (cs : list fit_call) (s : store) : store := fold_left (fun s c => fst (run_fit c s)) cs s.

(** What the loss of joint maximum likelihood pairs in one epoch: batches of indices in order
    (shuffle=False, jml.py:103-108), the data rows and the score rows [training_theta_scores[idx]] of
    each batch (155-158). *)
Definition joint_batches {A B} (da : A) (db : B) (batch_size : nat) (data : list A) (thetas : list B) : list (list (A * B)) :=
  map (map (fun i => (nth i data da, nth i thetas db))) (blocks batch_size (seq 0 (length data))).

(** ** requires-grad flags, _ml_map_theta_scores, models/base_irt_model.py:787-857 *)

(** An exception of class Exception, or one which [except Exception] does not catch (KeyboardInterrupt). base_irt_model.py:849-851. *)
Inductive raised := Exc (e : exn) | Interrupt.
(** Values, gradient buffers and flags of the parameters; which local variables have been assigned. base_irt_model.py:800-856. *)
Record scoring := Scoring {
  sc_values : list R; sc_grads : list R; sc_flags : list bool; sc_opt : bool; sc_i : bool }.
(** [self.requires_grad_(b)], base_irt_model.py:800 and 856. *)
Definition with_flags (b : bool) (s : scoring) : scoring :=
  Scoring (sc_values s) (sc_grads s) (map (fun _ => b) (sc_flags s)) (sc_opt s) (sc_i s).
(** [optimized_theta_scores] is assigned, base_irt_model.py:814. *)
Definition bind_opt (s : scoring) : scoring := Scoring (sc_values s) (sc_grads s) (sc_flags s) true (sc_i s).
(** [i] is assigned, base_irt_model.py:832. *)
Definition bind_i (s : scoring) : scoring := Scoring (sc_values s) (sc_grads s) (sc_flags s) (sc_opt s) true.
(** loss.backward() adds to the gradient of every parameter whose flag is set. base_irt_model.py:829. *)
Definition backward (g : nat -> R) (s : scoring) : scoring :=
  Scoring (sc_values s) (mapi (fun k x => if nth k (sc_flags s) false then x + g k else x) (sc_grads s))
          (sc_flags s) (sc_opt s) (sc_i s).

(** The steps which may raise: [w_prior] lines 788-797, [w_init] 802-814, [w_setup] 816-821, [w_iter i]
    iteration [i] (gradients [w_grad i] of its backward passes, [w_raise i] an exception after them,
    [w_stop i] convergence), [w_cpu] line 854. *)
Record world := World {
  w_map : bool; w_has_prior : bool; w_prior : option raised; w_init : option raised; w_setup : option raised;
  w_grad : nat -> list (nat -> R); w_raise : nat -> option raised; w_stop : nat -> bool; w_cpu : option raised }.

(** Lines 832-848.  Without a prior the first evaluation of the MAP loss raises NameError. *)
Fixpoint iterate (w : world) (fuel i : nat) (s : scoring) : scoring * option raised :=
  match fuel with
  | O => (s, None)
  | S fuel' =>
      let s := bind_i s in
      if w_map w && negb (w_has_prior w) then (s, Some (Exc OtherError))
      else let s := fold_left (fun s g => backward g s) (w_grad w i) s in
           match w_raise w i with
           | Some e => (s, Some e)
           | None => if w_stop w i then (s, None) else iterate w fuel' (S i) s
           end
  end.
(** base_irt_model.py:787-848. *)
Definition body (w : world) (max_iter : nat) (s : scoring) : scoring * option raised :=
  match (if w_map w && w_has_prior w then w_prior w else None) with
  | Some e => (s, Some e)
  | None =>
      let s := with_flags false s in
      match w_init w with
      | Some e => (s, Some e)
      | None =>
          let s := bind_opt s in
          match w_setup w with
          | Some e => (s, Some e)
          | None => iterate w max_iter 0 s
          end
      end
  end.
(** Lines 849-851: the message reads [i]. *)
Definition handler (s : scoring) (e : raised) : raised :=
  match e with
  | Interrupt => Interrupt
  | Exc x => if sc_i s then Exc x else Exc UnboundLocalError
  end.
(** Lines 852-856: an exception raised here replaces the one under way. *)
Definition finally (w : world) (s : scoring) : scoring * option raised :=
  match w_cpu w with
  | Some e => (s, Some e)
  | None => if sc_opt s then (with_flags true s, None) else (s, Some (Exc UnboundLocalError))
  end.
(** base_irt_model.py:787-857. *)
Definition ml_map (w : world) (cuda : bool) (s : scoring) : scoring * option raised :=
  let '(s1, r) := body w (if cuda then 50 else 40)%nat s in
  let r1 := match r with None => None | Some e => Some (handler s1 e) end in
  let '(s2, r2) := finally w s1 in
  (s2, match r2 with Some e => Some e | None => r1 end).
(** At the call, base_irt_model.py:758. *)
Definition start_scoring (values grads : list R) (flags : list bool) : scoring := Scoring values grads flags false false.
