(** Model of gauss_hermite, irtorch/utils.py:216-276, and of the choice of the integration rule in irtorch/estimation_algorithms/mml.py.
    Definitions only.  Real numbers for floats; numpy's one-dimensional rule is a parameter. *)
From Verif Require Import Base RBase M_Data M_CV M_Logit M_Lik M_Est M_Mix.
Import List.
Local Open Scope R_scope.

Definition at_ (c : wide R) (i j : nat) : R := nth j (nth i (w_rows c) []) 0.
(** utils.py:265-276.  [nodes] and [ws] are hermgauss(n).  torch.linalg.cholesky (its factorisation is [chol]) raises a
    RuntimeError for a matrix that is not square or has a pivot that is not positive; it reads the lower triangle only.
    A factor of another size than the mean cannot multiply the grid. *)
Definition gauss_hermite (nodes ws mean : list R) (cov : wide R) : result (list (list R) * list R) :=
  let d := length mean in
  let const := Rpower PI (- (1 / 2) * INR d) in
  let xn := product (repeat nodes d) in
  let wn := map (fold_right Rmult 1) (product (repeat ws d)) in
  if (length (w_rows cov) =? w_cols cov)%nat then
    match chol (w_cols cov) (at_ cov) with
    | None => Err RuntimeError
    | Some L =>
        if (w_cols cov =? d)%nat
        then Ok (map (fun x => map (fun i => sqrt 2 * sumn d (fun k => L i k * nth k x 0) + nth i mean 0) (seq 0 d)) xn, map (fun w => w * const) wn)
        else Err RuntimeError
    end
  else Err RuntimeError.

(** mml.py:93-121: the points and log weights used by MML.fit.  [hermgauss 0] is a ValueError (numpy). *)
Definition mml_rule (hermgauss : nat -> list R * list R) (use_gauss_hermite : bool) (lv : nat) (requested : option nat) (cov : option (wide R)) : result (list (list R) * list fl) :=
  bind (mml_points lv requested) (fun n =>
  bind (mml_covariance lv cov) (fun c =>
  if use_gauss_hermite then
    match n with
    | O => Err ValueError
    | _ => bind (gauss_hermite (fst (hermgauss n)) (snd (hermgauss n)) (repeat 0 lv) (Wide lv c)) (fun pw =>
           Ok (fst pw, map (fun w => flog (Some w)) (snd pw)))
    end
  else bind (mvn lv (repeat (Some (Fin 0)) lv) (map (map (fun x => Some (Fin x))) c)) (fun logpdf => Ok (mml_quasi_mc n lv logpdf)))).
