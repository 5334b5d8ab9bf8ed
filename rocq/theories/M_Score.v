(** Model of latent_scores (models/base_irt_model.py:545-646): argument checks, the encoder's input, the
    order of the steps and the standard errors.  Definitions only. *)
From Coq Require Import QArith Qround String Reals.
From Verif Require Import Base RBase M_Data M_Lik M_Est M_Stat.
Import List.
Local Open Scope nat_scope.

(** ** The encoder's input *)

(** [Tensor.round]: to the nearest integer, ties to the even one. _internal_utils.py:359-360. *)
Definition qround (q : Q) : Z :=
  let f := Qfloor q in
  match Qcompare (q - inject_Z f) (1 # 2) with
  | Lt => f
  | Gt => (f + 1)%Z
  | Eq => if Z.even f then f else (f + 1)%Z
  end.

(** one_hot_encode_test_data (_internal_utils.py:323-374) on imputed data: lines 359-360 round.  NaN is
    replaced by -1 before the rounding there and after it here, which is the same. *)
Definition one_hot_imputed (dim cols : nat) (rows : list (list qcell)) (cats : list nat) : result (list (list Z)) :=
  fst (one_hot_encode (Mat dim cols (map (map (option_map qround)) rows)) cats).
(** The result of one_hot_encode_test_data as floats, _internal_utils.py:374. *)
Definition as_floats (rows : list (list Z)) : list (list qcell) := map (map (fun z => Some (inject_Z z))) rows.

(** The training input: PytorchIRTDataset, irt_dataset.py:25-46, as called at ae.py:128-134 and
    vae.py:125-131 with the model's key and categories, after the check ae.py:125-126, vae.py:122-123.
    Second component: the caller's tensor (on the CPU [train_data.to(device)] is the same tensor). *)
Definition train_input (draw : nat -> nat -> nat -> nat) (one_hot : bool) (m : option imethod)
  (key : option (list Z)) (cats : list nat) (d : mat) : result (list (list qcell)) * mat :=
  match m with
  | Some m =>
      (bind (fst (impute_internal draw d m key (Some (map Z.of_nat cats)))) (fun x =>
         if one_hot then rmap as_floats (one_hot_imputed (m_dim d) (m_cols d) x cats) else Ok x), d)
  | None =>
      if one_hot then let '(r, d') := one_hot_encode d cats in (rmap as_floats r, d')
      else (Err ValueError, d)
  end.

(** Attributes of the algorithm read by latent_scores: [al_encoder] hasattr encoder, [al_one_hot] the
    attribute one_hot_encoded if any, imputation_method, [al_mean_se] hasattr latent_mean_se,
    [al_scores] training scores stored. base_irt_model.py:584-646. *)
Record algorithm := Alg {
  al_encoder : bool; al_one_hot : option bool; al_imputation : option imethod; al_mean_se : bool; al_scores : bool }.
(** AE.__init__ ae.py:18-23 and VAE.__init__; a model without algorithm, JML and MML. *)
Definition ae_new : algorithm := Alg true (Some true) None false false.
(** vae.py:17-22 (its superclass is AE). *)
Definition vae_new : algorithm := Alg true (Some true) None true false.
(** base_irt_model.py:45, jml.py:20-28, mml.py:37-45. *)
Definition other_algorithm (scores : bool) : algorithm := Alg false None None false scores.
(** What a fit leaves: ae.py:100-102 and 161; vae.py:103 and 158, which does not assign imputation_method. *)
Definition ae_fitted (one_hot : bool) (m : option imethod) (a : algorithm) : algorithm :=
  Alg (al_encoder a) (Some one_hot) m (al_mean_se a) true.
(** vae.py:103 and 158. *)
Definition vae_fitted (one_hot : bool) (m : option imethod) (a : algorithm) : algorithm :=
  Alg (al_encoder a) (Some one_hot) (al_imputation a) (al_mean_se a) true.

(** Lines 587-589: a vector becomes one row. *)
Definition as_rows (d : mat) : mat := if m_dim d =? 1 then Mat 2 (m_cols d) (m_rows d) else d.
(** base_irt_model.py:598. *)
Definition any_missing (d : mat) : bool := existsb (existsb missing_cell) (m_rows d).

(** Lines 597-613: the input and [data] after it ([encoder_data = data] is the same tensor). *)
Definition score_input (draw : nat -> nat -> nat -> nat) (one_hot : bool) (m : option imethod) (cats : list nat) (d : mat)
  : result (list (list qcell)) * mat :=
  let plain := if one_hot then let '(r, d') := one_hot_encode d cats in (rmap as_floats r, d')
               else (Ok (map (map to_q) (m_rows d)), d) in
  if any_missing d then
    match m with
    | Some m =>
        (bind (fst (impute_internal draw d m None None)) (fun x =>
           if one_hot then rmap as_floats (one_hot_imputed (m_dim d) (m_cols d) x cats) else Ok x), d)
    | None => if one_hot then plain else (Err ValueError, d)
    end
  else plain.

(** ** The request *)

(** Latent scores with NaN. *)
Notation thetas := (list (list (option R))).
Notation errors := (list (list fl)).

(** The parts of the model called: [e_encode] algorithm.theta_scores, [e_mean_se] latent_mean_se (vae.py:393-409),
    [e_start] _initial_theta_from_training_data, [e_ml] _ml_map_theta_scores (true for MAP), [e_eap],
    [e_scaled] whether there are scales, transform_theta, theta_transform_jacobian,
    information(item=False, rescale): a matrix per respondent (M_Stat.v). *)
Record engine := Engine {
  e_lv : nat; e_cats : list nat;
  e_encode : list (list qcell) -> result thetas;
  e_mean_se : list (list qcell) -> result (thetas * thetas);
  e_start : mat -> thetas;
  e_ml : bool -> mat -> thetas -> result thetas;
  e_eap : mat -> result thetas;
  e_scaled : bool;
  e_transform : thetas -> result thetas;
  e_jacobian : thetas -> result (list (list (list (option R))));
  e_information : bool -> thetas -> result (list (list (list fl))) }.

(** Lines 636-640 for one respondent: square roots of the sums of [J_ij V_jk J_ik], V diagonal. *)
Definition delta_se (J : list (list (option R))) (se : list (option R)) : list (option R) :=
  map (fun Ji => option_map sqrt (osum (zip_with (olift2 (fun j s => (j * j * (s * s))%R)) Ji se))) J.
(** Line 643: one divided by the root of the information. *)
Definition info_se (x : fl) : fl :=
  match x with
  | Some (Fin v) => if Rlt_dec v 0 then None else if Req_EM_T v 0 then Some PInf else Some (Fin (/ sqrt v))
  | Some PInf => Some (Fin 0)
  | Some NInf => None
  | None => None
  end.

(** base_irt_model.py:583. *)
Definition estimation_methods : list string := ["NN"; "ML"; "EAP"; "MAP"]%string.
(** python's [in] on a list of strings, base_irt_model.py:583-585 and 623. *)
Definition str_in (s : string) (l : list string) : bool := existsb (String.eqb s) l.

(** Lines 584-646.  [contiguous]: the caller's tensor is contiguous, so that [data.contiguous()] is the
    tensor itself.  Second component: the caller's tensor afterwards. *)
Definition latent_scores (draw : nat -> nat -> nat -> nat) (e : engine) (a : algorithm) (contiguous : bool) (d : mat)
  (standard_errors : bool) (method : string) (rescale : bool) : result (thetas * option errors) * mat :=
  if negb (str_in method estimation_methods) then (Err ValueError, d)
  else if standard_errors && negb (str_in method ["ML"; "NN"]%string) then (Err ValueError, d)
  else if negb (al_encoder a) && String.eqb method "NN" then (Err ValueError, d)
  else
    let data := as_rows d in
    (* the scores, the encoder's input and the data *)
    let '(r, data') :=
      if String.eqb method "EAP" then (rmap (fun t => (t, [])) (e_eap e data), data)
      else
        let '(start, data') :=
          match al_one_hot a with
          | Some one_hot =>
              let '(inp, data') := score_input draw one_hot (al_imputation a) (e_cats e) data in
              (bind inp (fun x => rmap (fun t => (t, x)) (e_encode e x)), data')
          | None => (Ok (if al_scores a then e_start e data else map (fun _ => repeat (Some 0%R) (e_lv e)) (m_rows data), []), data)
          end in
        (bind start (fun tx =>
           if str_in method ["ML"; "MAP"]%string then rmap (fun t => (t, snd tx)) (e_ml e (String.eqb method "MAP") data' (fst tx))
           else Ok tx), data') in
    let out := bind r (fun tx =>
      let '(theta, x) := tx in
      bind (if rescale && e_scaled e then e_transform e theta else Ok theta) (fun return_theta =>
      if standard_errors then
        if al_mean_se a && String.eqb method "NN" then
          bind (e_mean_se e x) (fun ms =>
            bind (if rescale && e_scaled e
                  then rmap (fun J => zip_with delta_se J (snd ms)) (e_jacobian e (fst ms))
                  else Ok (snd ms)) (fun se => Ok (return_theta, Some (map (map (option_map Fin)) se))))
        else rmap (fun Is => (return_theta, Some (map (fun I => map info_se (diagonal I)) Is))) (e_information e rescale theta)
      else Ok (return_theta, None))) in
    (out, if contiguous then Mat (m_dim d) (m_cols d) (m_rows data') else d).
