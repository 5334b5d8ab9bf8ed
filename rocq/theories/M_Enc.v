(** Model of the encoders: construction of the layer lists and the forward pass.  Definitions only.
    Modelled: estimation_algorithms/encoders/standard_encoder.py, variational_encoder.py,
    bounded_encoder.py, and the construction of the encoder in AE.fit and VAE.fit.
    Simplifications: sizes are natural numbers; a batch is a list of rows, the width of a batch
    without rows is not tracked; the update of the running statistics is not modelled; the
    nonlinearity acts elementwise. *)
From Coq Require Import Reals String DecimalString.
From Verif Require Import Base RBase M_Data.
Import List.
Local Open Scope R_scope.

(** f"linear{i}" and the like. standard_encoder.py:27, 30, 31, 35. *)
Definition numbered (prefix : string) (i : nat) : string :=
  append prefix (NilEmpty.string_of_uint (Nat.to_uint i)).

(** nn.Linear(in, out), nn.BatchNorm1d(n), the given nonlinearity, nn.Tanh(). standard_encoder.py:19-22, bounded_encoder.py:37. *)
Inductive layer := Linear (nin nout : nat) | BatchNorm (n : nat) | Nonlinear | Tanh.

(** nn.Sequential: an ordered dictionary.  [add_module] assigns into the dictionary, so that a name
    already present keeps its place and only its module is replaced. standard_encoder.py:17. *)
Definition modules := list (string * layer).
(** self.layers.add_module, standard_encoder.py:19-36. *)
Fixpoint add_module (k : string) (x : layer) (l : modules) : modules :=
  match l with
  | [] => [(k, x)]
  | (k', y) :: r => if string_dec k k' then (k', x) :: r else (k', y) :: add_module k x r
  end.

(** standard_encoder.py:19-22, and the same lines of the two other encoders. *)
Definition input_layers (bn : bool) (input_dim h0 : nat) : modules :=
  let l := add_module "linear0"%string (Linear input_dim h0) [] in
  let l := if bn then add_module "batchnorm0"%string (BatchNorm h0) l else l in
  add_module "nonlinear0"%string Nonlinear l.

(** standard_encoder.py:25-31, one iteration of the loop: the normalisation is "batchnorm0{i}". *)
Definition standard_hidden (bn : bool) (h : list nat) (l : modules) (i : nat) : modules :=
  let l := add_module (numbered "linear" i) (Linear (nth (i - 1) h 0%nat) (nth i h 0%nat)) l in
  let l := if bn then add_module (numbered "batchnorm0" i) (BatchNorm (nth i h 0%nat)) l else l in
  add_module (numbered "nonlinear" i) Nonlinear l.

(** variational_encoder.py:25-31 and bounded_encoder.py:25-31: the name is "batchnorm0" again. *)
Definition renamed_hidden (bn : bool) (h : list nat) (l : modules) (i : nat) : modules :=
  let l := add_module (numbered "linear" i) (Linear (nth (i - 1) h 0%nat) (nth i h 0%nat)) l in
  let l := if bn then add_module "batchnorm0"%string (BatchNorm (nth i h 0%nat)) l else l in
  add_module (numbered "nonlinear" i) Nonlinear l.

(** [hidden_dim[0]] of an empty list raises IndexError. standard_encoder.py:19-31, variational_encoder.py:19-31, bounded_encoder.py:19-31. *)
Definition hidden_stack (step : list nat -> modules -> nat -> modules) (bn : bool) (input_dim : nat) (h : list nat) : result modules :=
  match h with
  | [] => Err IndexError
  | h0 :: _ => Ok (fold_left (step h) (seq 1 (List.length h - 1)) (input_layers bn input_dim h0))
  end.

(** StandardEncoder.__init__, standard_encoder.py:8-37. *)
Definition standard_encoder (bn : bool) (input_dim lv : nat) (h : list nat) : result modules :=
  bind (hidden_stack (standard_hidden bn) bn input_dim h) (fun l =>
  Ok (add_module (numbered "linear" (List.length h + 1)) (Linear (last h 0%nat) lv) l)).

(** BoundedEncoder.__init__, bounded_encoder.py:8-37. *)
Definition bounded_encoder (bn : bool) (input_dim lv : nat) (h : list nat) : result modules :=
  bind (hidden_stack (renamed_hidden bn) bn input_dim h) (fun l =>
  let l := add_module (numbered "linear" (List.length h + 1)) (Linear (last h 0%nat) lv) l in
  Ok (add_module (numbered "tanh" (List.length h + 1)) Tanh l)).

(** VariationalEncoder.__init__, variational_encoder.py:8-36: the stack and the sizes of mu_layer and
    sigma_layer. *)
Definition variational_encoder (bn : bool) (input_dim lv : nat) (h : list nat) : result (modules * layer * layer) :=
  bind (hidden_stack (renamed_hidden bn) bn input_dim h) (fun l =>
  Ok (l, Linear (last h 0%nat) lv, Linear (last h 0%nat) lv)).

(** Current values of the parameters and buffers, by module name: [p_weight name out in].
    State of the encoder, standard_encoder.py:19-37, variational_encoder.py:19-36. *)
Record values := Values {
  p_weight : string -> nat -> nat -> R; p_bias : string -> nat -> R;
  p_gamma : string -> nat -> R; p_beta : string -> nat -> R;
  p_mean : string -> nat -> R; p_var : string -> nat -> R }.

(** The shape check of nn.Linear and nn.BatchNorm1d, run at standard_encoder.py:44. *)
Definition all_width (n : nat) (xs : list (list R)) : bool := forallb (fun r => (List.length r =? n)%nat) xs.

(** nn.Linear on a batch: the last dimension must be [nin]. Run at standard_encoder.py:44, variational_encoder.py:45-47. *)
Definition linear_rows (v : values) (k : string) (nin nout : nat) (xs : list (list R)) : result (list (list R)) :=
  if all_width nin xs
  then Ok (map (fun r => map (fun j => sumn nin (fun i => p_weight v k j i * nth i r 0) + p_bias v k j) (seq 0 nout)) xs)
  else Err RuntimeError.

(** nn.BatchNorm1d: in training mode with the mean and biased variance of the batch (a single row
    raises ValueError), in evaluation mode with the running statistics; eps = 1e-5. standard_encoder.py:21, 30. *)
Definition bn_eps : R := / 100000.
(** One entry after normalisation, run at standard_encoder.py:44. *)
Definition bn_scale (v : values) (k : string) (j : nat) (mean var x : R) : R :=
  (x - mean) / sqrt (var + bn_eps) * p_gamma v k j + p_beta v k j.
(** Batch mean of one column, run at standard_encoder.py:44. *)
Definition column_mean (j : nat) (xs : list (list R)) : R := rsum (map (fun r => nth j r 0) xs) / INR (List.length xs).
(** Biased batch variance of one column, run at standard_encoder.py:44. *)
Definition column_var (j : nat) (xs : list (list R)) : R :=
  rsum (map (fun r => (nth j r 0 - column_mean j xs) ^ 2) xs) / INR (List.length xs).
(** The whole layer, run at standard_encoder.py:44. *)
Definition batch_norm (v : values) (training : bool) (k : string) (n : nat) (xs : list (list R)) : result (list (list R)) :=
  if training && (List.length xs =? 1)%nat then Err ValueError
  else if all_width n xs
  then Ok (map (fun r => map (fun j =>
         if training then bn_scale v k j (column_mean j xs) (column_var j xs) (nth j r 0)
         else bn_scale v k j (p_mean v k j) (p_var v k j) (nth j r 0)) (seq 0 n)) xs)
  else Err RuntimeError.

(** One module of the stack, run at standard_encoder.py:44. *)
Definition run_layer (f : R -> R) (v : values) (training : bool) (m : string * layer) (xs : list (list R)) : result (list (list R)) :=
  match snd m with
  | Linear nin nout => linear_rows v (fst m) nin nout xs
  | BatchNorm n => batch_norm v training (fst m) n xs
  | Nonlinear => Ok (map (map f) xs)
  | Tanh => Ok (map (map tanh) xs)
  end.

(** Sequential.forward; standard_encoder.py:43-44, bounded_encoder.py:39-40. *)
Definition run_layers (f : R -> R) (v : values) (training : bool) (l : modules) (xs : list (list R)) : result (list (list R)) :=
  fold_left (fun r m => bind r (run_layer f v training m)) l (Ok xs).

(** VariationalEncoder.forward, variational_encoder.py:44-48. *)
Definition run_variational (f : R -> R) (v : values) (training : bool) (e : modules * layer * layer) (xs : list (list R))
  : result (list (list R) * list (list R)) :=
  let '(l, mu, sigma) := e in
  bind (run_layers f v training l xs) (fun enc =>
  bind (run_layer f v training ("mu_layer"%string, mu) enc) (fun m =>
  bind (run_layer f v training ("sigma_layer"%string, sigma) enc) (fun s => Ok (m, s)))).

(** AE.fit, ae.py:109-123, and VAE.fit, vae.py:107-120: width of the encoder input and default hidden
    layer. *)
Definition encoder_input (one_hot : bool) (cats : list nat) : nat := if one_hot then list_sum cats else List.length cats.
(** ae.py:114-115, vae.py:111-112. *)
Definition encoder_hidden (hidden : option (list nat)) (cats : list nat) : list nat :=
  match hidden with None => [(2 * list_sum cats)%nat] | Some h => h end.
(** ae.py:109-123. *)
Definition ae_encoder (one_hot bn : bool) (lv : nat) (hidden : option (list nat)) (cats : list nat) : result modules :=
  standard_encoder bn (encoder_input one_hot cats) lv (encoder_hidden hidden cats).
(** vae.py:107-120. *)
Definition vae_encoder (one_hot bn : bool) (lv : nat) (hidden : option (list nat)) (cats : list nat) : result (modules * layer * layer) :=
  variational_encoder bn (encoder_input one_hot cats) lv (encoder_hidden hidden cats).

(** AE.theta_scores (ae.py:326-341) and VAE.theta_scores (vae.py:306-324) on one-hot encoded data, in
    evaluation mode as left by fit (ae.py:158, vae.py:155). .float(), _internal_utils.py:374. *)
Definition to_rows (enc : list (list Z)) : list (list R) := map (map IZR) enc.
(** ae.py:326-341 after base_irt_model.py:611-613. *)
Definition ae_scores (f : R -> R) (v : values) (e : modules) (d : mat) (cats : list nat) : result (list (list R)) :=
  bind (fst (one_hot_encode d cats)) (fun enc => run_layers f v false e (to_rows enc)).
(** vae.py:306-324 after base_irt_model.py:611-613. *)
Definition vae_scores (f : R -> R) (v : values) (e : modules * layer * layer) (d : mat) (cats : list nat) : result (list (list R)) :=
  bind (fst (one_hot_encode d cats)) (fun enc => rmap fst (run_variational f v false e (to_rows enc))).
