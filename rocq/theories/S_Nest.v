(** Vocabulary for models that contain one another: the same parameters read by another model. *)
From Verif Require Import Base RBase M_Logit S_Logit.
Import List.
Local Open Scope R_scope.

(** 1PL as a 2PL with unit slopes on one latent variable. *)
Definition opl_as_tpl (m : opl) : tpl :=
  {| tpl_lv := 1; tpl_free := repeat [true] (opl_items m); tpl_w := repeat 1 (opl_items m); tpl_b := opl_b m |}.
(** A 2PL's parameters in a polytomous model whose items all have two categories. *)
Definition tpl_as_poly (m : tpl) : poly :=
  {| p_cats := repeat 2%nat (tpl_items m); p_lv := tpl_lv m; p_free := tpl_free m; p_w := tpl_w m; p_b := tpl_b m |}.
(** The nominal model's slopes and intercepts sum to zero over the categories, so the difference between
    the two categories is twice the stored value. *)
Definition tpl_as_nrm (m : tpl) : nrm :=
  {| nrm_cats := repeat 2%nat (tpl_items m); nrm_lv := tpl_lv m; nrm_rel := tpl_free m;
     nrm_w := map (fun a => a / 2) (tpl_w m); nrm_b := map (fun b => b / 2) (tpl_b m) |}.
(** A 3PL without its guessing parameters. *)
Definition thpl_core (m : thpl) : tpl :=
  {| tpl_lv := thpl_lv m; tpl_free := thpl_free m; tpl_w := thpl_w m; tpl_b := thpl_b m |}.
(** The partial credit model inside the nominal model: category slopes proportional to the centred
    category number, intercepts centred within the item. *)
Definition centred (K k : nat) : R := INR k - (INR K - 1) / 2.
Definition gpc_as_nrm (m : poly) : nrm :=
  {| nrm_cats := p_cats m; nrm_lv := p_lv m; nrm_rel := p_free m;
     nrm_w := concat (map (fun i => concat (map (fun k =>
        mask_select (nth i (p_free m) []) (map (fun d => centred (nth i (p_cats m) O) k * slope (p_free m) (p_w m) i d) (seq 0 (p_lv m))))
        (seq 1 (pred (nth i (p_cats m) O))))) (seq 0 (p_items m)));
     nrm_b := concat (map (fun i => map (fun k =>
        intercept (p_cats m) (p_b m) i k - sumn (nth i (p_cats m) O) (intercept (p_cats m) (p_b m) i) / INR (nth i (p_cats m) O))
        (seq 1 (pred (nth i (p_cats m) O)))) (seq 0 (p_items m))) |}.
