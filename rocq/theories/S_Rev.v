(** Vocabulary for items scored in the other direction. *)
From Verif Require Import Base RBase M_Data M_Logit M_Lik M_Est S_Logit S_Lik S_Est S_Sym.
Import List.
Local Open Scope R_scope.

(** [flip]: which items are scored in the other direction. *)
Definition flipped (flip : list bool) (i : nat) : bool := nth i flip false.
(** The answer [k] to item [i], with the categories of the flipped items numbered from the other end. *)
Definition other_end (flip : list bool) (cats : list nat) (i k : nat) : nat :=
  if flipped flip i then (nth i cats O - 1 - k)%nat else k.
(** A respondent's answers so numbered; missing answers stay as they are. *)
Definition recoded (flip : list bool) (cats : list nat) (row : list cell) : list cell :=
  mapi (fun i c => match answer c with Some k => if flipped flip i then Some (Z.of_nat (other_end flip cats i k)) else c | None => c end) row.

(** The models with free slopes for every item and no guessing. *)
Definition reversible (x : irt) : Prop := match x with Opl _ | Thpl _ => False | _ => True end.
(** The item parameters for answers numbered from the other end: opposite slopes, and for the categories
    - 2PL: the opposite intercept,
    - generalised partial credit: the intercepts from the other end, less the one of the new first category,
    - graded response: the opposite thresholds from the other end,
    - nominal: slopes and intercepts from the other end. *)
Definition recode (flip : list bool) (x : irt) : irt :=
  let sg i : R := if flipped flip i then -1 else 1 in
  match x with
  | Opl m => Opl m
  | Thpl m => Thpl m
  | Tpl m =>
      Tpl {| tpl_lv := tpl_lv m; tpl_free := tpl_free m; tpl_w := store_slopes (tpl_lv m) (tpl_free m) (fun i d => sg i * slope (tpl_free m) (tpl_w m) i d);
             tpl_b := mapi (fun i b => sg i * b) (tpl_b m) |}
  | Gpc m => let c := intercept (p_cats m) (p_b m) in
      Gpc {| p_cats := p_cats m; p_lv := p_lv m; p_free := p_free m; p_w := store_slopes (p_lv m) (p_free m) (fun i d => sg i * slope (p_free m) (p_w m) i d);
             p_b := store_intercepts (p_cats m) (fun i k => c i (other_end flip (p_cats m) i k) - c i (other_end flip (p_cats m) i O)) |}
  | Grm m => let c := intercept (p_cats m) (p_b m) in
      Grm {| p_cats := p_cats m; p_lv := p_lv m; p_free := p_free m; p_w := store_slopes (p_lv m) (p_free m) (fun i d => sg i * slope (p_free m) (p_w m) i d);
             p_b := store_intercepts (p_cats m) (fun i k => if flipped flip i then - c i (nth i (p_cats m) O - k)%nat else c i k) |}
  | Nrm m =>
      Nrm {| nrm_cats := nrm_cats m; nrm_lv := nrm_lv m; nrm_rel := nrm_rel m;
             nrm_w := store_category_slopes (nrm_cats m) (nrm_lv m) (nrm_rel m) (fun i k => nrm_slope m i (other_end flip (nrm_cats m) i k));
             nrm_b := store_intercepts (nrm_cats m) (fun i k => nrm_intercept m i (other_end flip (nrm_cats m) i k)) |}
  end.
(** The same class of model with the same items, latent variables and free slopes; the parameters may differ. *)
Definition alike (x y : irt) : Prop :=
  match x, y with
  | Tpl m, Tpl n => tpl_lv n = tpl_lv m /\ tpl_free n = tpl_free m
  | Gpc m, Gpc n | Grm m, Grm n => p_cats n = p_cats m /\ p_lv n = p_lv m /\ p_free n = p_free m
  | Nrm m, Nrm n => nrm_cats n = nrm_cats m /\ nrm_lv n = nrm_lv m /\ nrm_rel n = nrm_rel m
  | _, _ => False end.
