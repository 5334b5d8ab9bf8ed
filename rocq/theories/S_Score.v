(** Specification vocabulary for latent_scores. *)
From Coq Require Import QArith String Reals.
From Verif Require Import Base RBase M_Data M_Lik M_Score S_Data.
Import List.
Local Open Scope nat_scope.

(** Some response is missing; none is. *)
Definition some_missing (d : mat) : Prop := exists r c x, at_ (m_rows d) r c = Some x /\ Missing x.
Definition complete (d : mat) : Prop := forall row c, In row (m_rows d) -> In c row -> ~ Missing c.
Definition holds_nan (d : mat) : Prop := exists row, In row (m_rows d) /\ In None row.

(** The request is one latent_scores answers. *)
Definition permitted (encoder : bool) (standard_errors : bool) (method : string) : Prop :=
  In method ["NN"; "ML"; "EAP"; "MAP"]%string /\
  (standard_errors = true -> method = "ML"%string \/ method = "NN"%string) /\
  (method = "NN"%string -> encoder = true).

(** [u] is what is returned for the scores [t]. *)
Definition on_scale (e : engine) (rescale : bool) (t u : thetas) : Prop :=
  if (rescale && e_scaled e)%bool then e_transform e t = Ok u else u = t.

(** All entries of a row are numbers. *)
Definition numbers (l : list R) : list (option R) := map Some l.

(** [I] is positive definite on vectors of [n] entries. *)
Definition positive_definite (n : nat) (I : nat -> nat -> R) : Prop :=
  (forall i j, i < n -> j < n -> I i j = I j i) /\
  forall v : nat -> R, (exists i, i < n /\ v i <> 0%R) -> (0 < sumn n (fun i => sumn n (fun j => v i * I i j * v j)))%R.
(** [x] is column [i] of its inverse, so [x i] is the asymptotic variance of score [i]. *)
Definition inverse_column (n : nat) (I : nat -> nat -> R) (i : nat) (x : nat -> R) : Prop :=
  forall j, j < n -> (sumn n (fun k => I j k * x k) = if j =? i then 1 else 0)%R.

(** Starting values [s] of the scores: the encoder's output for its input [x], else scores found among
    the training scores, else zeros.  [d'] is the data used from then on. *)
Definition starts (draw : nat -> nat -> nat -> nat) (e : engine) (a : algorithm) (d : mat) (s : thetas) (x : list (list qcell)) (d' : mat) : Prop :=
  match al_one_hot a with
  | Some one_hot => score_input draw one_hot (al_imputation a) (e_cats e) d = (Ok x, d') /\ e_encode e x = Ok s
  | None => d' = d /\ x = [] /\ s = if al_scores a then e_start e d else repeat (repeat (Some 0%R) (e_lv e)) (length (m_rows d))
  end.
(** [t] are the scores found by [method], before any change of scale. *)
Definition estimated (draw : nat -> nat -> nat -> nat) (e : engine) (a : algorithm) (d : mat) (method : string) (t : thetas) (x : list (list qcell)) : Prop :=
  (method = "EAP"%string /\ x = [] /\ e_eap e d = Ok t) \/
  exists s d', starts draw e a d s x d' /\
    ((method = "NN"%string /\ t = s) \/ (method = "ML"%string /\ e_ml e false d' s = Ok t) \/ (method = "MAP"%string /\ e_ml e true d' s = Ok t)).

(** [z] is the nearest integer to the mean [s / n], the even one of two equally near. *)
Definition nearest_mean (s n : Z) (z : Z) : Prop :=
  (2 * Z.abs (n * z - s) <= n /\ (2 * Z.abs (n * z - s) = n -> Z.Even z))%Z.
