(** Vocabulary for the existence of best parameters. *)
From Verif Require Import Base RBase M_Data M_Logit M_Lik M_Est M_Jml S_Logit S_Lik S_Est S_Item.
Import List.
Local Open Scope R_scope.

(** Change of the logit of category [k] of item [i] for a respondent at [t] when the parameters move by [u]. *)
Definition drift (F : family) (u t : list R) (i k : nat) : R := sumn (f_params F) (fun e => f_effect F t e i k * nth e u 0).
(** Moving the parameters by [u] puts no category above the one that was answered, anywhere, and puts one below it
    somewhere; [at_ r] are the scores considered for respondent [r]. *)
Definition separating (F : family) (data : list (list cell)) (at_ : nat -> list (list R)) (u : list R) : Prop :=
  (forall r i k j t, (r < length data)%nat -> answer (nth i (nth r data []) None) = Some k -> (j < nth i (f_cats F) O)%nat -> In t (at_ r) -> drift F u t i j <= drift F u t i k) /\
  exists r i k j t, (r < length data)%nat /\ answer (nth i (nth r data []) None) = Some k /\ (j < nth i (f_cats F) O)%nat /\ In t (at_ r) /\ drift F u t i j < drift F u t i k.
(** Somebody answered item [i]; nobody chose [k]. *)
Definition unused (data : list (list cell)) (i k : nat) : Prop :=
  (exists r j, (r < length data)%nat /\ answer (nth i (nth r data []) None) = Some j) /\
  forall r, (r < length data)%nat -> answer (nth i (nth r data []) None) <> Some k.
(** Persons above and below, items above and below: those above answered everything below right, those below everything
    above wrong, and there is at least one such answer. *)
Definition cut (data : list (list cell)) (person item : nat -> bool) : Prop :=
  (forall r i k, (r < length data)%nat -> answer (nth i (nth r data []) None) = Some k ->
     (person r = true -> item i = false -> k = 1%nat) /\ (person r = false -> item i = true -> k = 0%nat)) /\
  exists r i k, (r < length data)%nat /\ answer (nth i (nth r data []) None) = Some k /\ person r <> item i.
(** Scores and intercepts of a one-parameter model have the lowest joint loss. *)
Definition lowest_joint (nanl : Z) (items : nat) (data : list (list cell)) (scores b : list R) : Prop :=
  let loss s c := jml_loss (f_model (opl_family nanl items) c) (Wide items data) (map (fun x => [x]) s) in
  exists x, loss scores b = Ok (Some (Fin x)) /\
    forall s c, length s = length data -> length c = items -> exists y, loss s c = Ok (Some (Fin y)) /\ x <= y.
(** Weight of the quadrature points above and below 0. *)
Definition weight_above (xs ws : list R) : R := sumn (length xs) (fun q => if Rlt_dec 0 (nth q xs 0) then nth q ws 0 else 0).
Definition weight_below (xs ws : list R) : R := sumn (length xs) (fun q => if Rlt_dec (nth q xs 0) 0 then nth q ws 0 else 0).
(** Two items and two respondents, one with both answers right and one with both wrong. *)
Definition apart : list (list cell) := [[Some 1%Z; Some 1%Z]; [Some 0%Z; Some 0%Z]].
