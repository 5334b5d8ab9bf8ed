(** The monotone models as the estimation algorithms and the scoring see them: forward pass and the log-likelihood of the base class, which
    neither MonotoneNN (models/monotone_nn.py) nor MonotonePolynomial (models/monotone_polynomial.py) overrides.  Definitions only. *)
From Verif Require Import Base RBase M_Data M_Logit M_Lik M_Est M_Mono.
Import List.

(** MonotoneNN: forward monotone_nn.py:195-226, log_likelihood base_irt_model.py:221-264. *)
Definition mnn_model (nanl : Z) (m : mnn) : emodel :=
  EModel (n_lv m) (n_cats m) (fun thetas => rmap (fun rows => T2 (Wide (n_items m * n_max m) rows)) (mnn_forward m thetas))
    (fun red data out mask => base_log_likelihood nanl (n_max m) red (w_rows data) (rows_of out) (option_map w_rows mask)).
(** MonotonePolynomial: forward models/monotone_polynomial.py:97-107, log_likelihood base_irt_model.py:221-264. *)
Definition mpm_model (nanl : Z) (m : mpm) : emodel :=
  of_sub (logit_sub nanl (mp_in (q_poly m)) (q_cats m) (map (mpm_forward1 m))).
