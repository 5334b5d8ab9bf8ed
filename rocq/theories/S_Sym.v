(** Vocabulary for the symmetries of estimation: order of respondents and items, origin, unit and sign of latent variables. *)
From Verif Require Import Base RBase M_Data M_Logit M_Lik M_Est S_Logit S_Lik S_Est.
Import List.
Local Open Scope R_scope.

(** The library's parametric models. *)
Inductive irt := Opl (m : opl) | Tpl (m : tpl) | Thpl (m : thpl) | Gpc (m : poly) | Grm (m : poly) | Nrm (m : nrm).
Definition model_of (nanl : Z) (x : irt) : emodel :=
  match x with
  | Opl m => of_sub (opl_sub nanl m) | Tpl m => of_sub (tpl_sub nanl m) | Thpl m => of_sub (thpl_sub nanl m)
  | Gpc m => of_sub (gpc_sub nanl m) | Grm m => of_sub (grm_sub nanl m) | Nrm m => of_sub (nrm_sub nanl m) end.
Definition chances (x : irt) : list R -> nat -> nat -> R :=
  match x with Opl m => opl_p m | Tpl m => tpl_p m | Thpl m => thpl_p m | Gpc m => gpc_p m | Grm m => grm_p m | Nrm m => nrm_p m end.
Definition well_formed (x : irt) : Prop :=
  match x with
  | Opl m => length (opl_b m) = opl_items m /\ (0 < opl_items m)%nat
  | Tpl m => tpl_wf m /\ (0 < tpl_items m)%nat
  | Thpl m => thpl_wf m /\ (0 < thpl_items m)%nat
  | Gpc m => poly_wf m /\ (0 < p_items m)%nat
  | Grm m => poly_wf m /\ (0 < p_items m)%nat /\ decreasing_intercepts m
  | Nrm m => nrm_wf m /\ (0 < length (nrm_cats m))%nat end.
Definition latents (x : irt) : nat :=
  match x with Opl _ => 1%nat | Tpl m => tpl_lv m | Thpl m => thpl_lv m | Gpc m | Grm m => p_lv m | Nrm m => nrm_lv m end.

(** The elements of [l] in the order [order]. *)
Definition pick {A} (order : list nat) (l : list A) (x : A) : list A := map (fun j => nth j l x) order.
(** Parameters stored as the models store them: free slopes item by item, intercepts of the categories from 1 item by item. *)
Definition store_slopes (lv : nat) (free : list (list bool)) (A : nat -> nat -> R) : list R :=
  concat (map (fun i => mask_select (nth i free []) (map (A i) (seq 0 lv))) (seq 0 (length free))).
Definition store_intercepts (cats : list nat) (B : nat -> nat -> R) : list R :=
  concat (map (fun i => map (B i) (seq 1 (pred (nth i cats O)))) (seq 0 (length cats))).
Definition store_category_slopes (cats : list nat) (lv : nat) (rel : list (list bool)) (A : nat -> nat -> nat -> R) : list R :=
  concat (map (fun i => concat (map (fun k => mask_select (nth i rel []) (map (A i k) (seq 0 lv))) (seq 1 (pred (nth i cats O))))) (seq 0 (length cats))).

(** The same items in another order. *)
Definition reorder (order : list nat) (x : irt) : irt :=
  let at_ i := nth i order O in
  match x with
  | Opl m => Opl {| opl_items := opl_items m; opl_b := pick order (opl_b m) 0 |}
  | Tpl m => let free := pick order (tpl_free m) [] in
      Tpl {| tpl_lv := tpl_lv m; tpl_free := free; tpl_w := store_slopes (tpl_lv m) free (fun i => slope (tpl_free m) (tpl_w m) (at_ i)); tpl_b := pick order (tpl_b m) 0 |}
  | Thpl m => let free := pick order (thpl_free m) [] in
      Thpl {| thpl_lv := thpl_lv m; thpl_free := free; thpl_w := store_slopes (thpl_lv m) free (fun i => slope (thpl_free m) (thpl_w m) (at_ i));
              thpl_b := pick order (thpl_b m) 0; thpl_g := pick order (thpl_g m) 0 |}
  | Gpc m => let free := pick order (p_free m) [] in let cats := pick order (p_cats m) O in
      Gpc {| p_cats := cats; p_lv := p_lv m; p_free := free; p_w := store_slopes (p_lv m) free (fun i => slope (p_free m) (p_w m) (at_ i));
             p_b := store_intercepts cats (fun i => intercept (p_cats m) (p_b m) (at_ i)) |}
  | Grm m => let free := pick order (p_free m) [] in let cats := pick order (p_cats m) O in
      Grm {| p_cats := cats; p_lv := p_lv m; p_free := free; p_w := store_slopes (p_lv m) free (fun i => slope (p_free m) (p_w m) (at_ i));
             p_b := store_intercepts cats (fun i => intercept (p_cats m) (p_b m) (at_ i)) |}
  | Nrm m => let rel := pick order (nrm_rel m) [] in let cats := pick order (nrm_cats m) O in
      Nrm {| nrm_cats := cats; nrm_lv := nrm_lv m; nrm_rel := rel; nrm_w := store_category_slopes cats (nrm_lv m) rel (fun i => nrm_free_slope m (at_ i));
             nrm_b := store_intercepts cats (fun i => intercept (nrm_cats m) (nrm_b m) (at_ i)) |}
  end.
(** Scores on another scale, theta' = (theta - c) / s in every latent variable, and the item parameters that go with them:
    slopes multiplied by [s], intercepts moved by slope times [c].  (The slope of the 1PL model is fixed at one.) *)
Definition standard (s c t : list R) : list R := map (fun d => (nth d t 0 - nth d c 0) / nth d s 1) (seq 0 (length t)).
Definition rescale (s c : list R) (x : irt) : irt :=
  let by_ (a : nat -> R) d := nth d s 1 * a d in
  match x with
  | Opl m => Opl {| opl_items := opl_items m; opl_b := map (fun b => b + nth 0 c 0) (opl_b m) |}
  | Tpl m => let a := slope (tpl_free m) (tpl_w m) in
      Tpl {| tpl_lv := tpl_lv m; tpl_free := tpl_free m; tpl_w := store_slopes (tpl_lv m) (tpl_free m) (fun i => by_ (a i));
             tpl_b := mapi (fun i b => b + predictor (tpl_lv m) (a i) c) (tpl_b m) |}
  | Thpl m => let a := slope (thpl_free m) (thpl_w m) in
      Thpl {| thpl_lv := thpl_lv m; thpl_free := thpl_free m; thpl_w := store_slopes (thpl_lv m) (thpl_free m) (fun i => by_ (a i));
              thpl_b := mapi (fun i b => b + predictor (thpl_lv m) (a i) c) (thpl_b m); thpl_g := thpl_g m |}
  | Gpc m => let a := slope (p_free m) (p_w m) in
      Gpc {| p_cats := p_cats m; p_lv := p_lv m; p_free := p_free m; p_w := store_slopes (p_lv m) (p_free m) (fun i => by_ (a i));
             p_b := store_intercepts (p_cats m) (fun i k => intercept (p_cats m) (p_b m) i k + INR k * predictor (p_lv m) (a i) c) |}
  | Grm m => let a := slope (p_free m) (p_w m) in
      Grm {| p_cats := p_cats m; p_lv := p_lv m; p_free := p_free m; p_w := store_slopes (p_lv m) (p_free m) (fun i => by_ (a i));
             p_b := store_intercepts (p_cats m) (fun i k => intercept (p_cats m) (p_b m) i k + predictor (p_lv m) (a i) c) |}
  | Nrm m => let a := nrm_free_slope m in
      Nrm {| nrm_cats := nrm_cats m; nrm_lv := nrm_lv m; nrm_rel := nrm_rel m;
             nrm_w := store_category_slopes (nrm_cats m) (nrm_lv m) (nrm_rel m) (fun i k => by_ (a i k));
             nrm_b := store_intercepts (nrm_cats m) (fun i k => intercept (nrm_cats m) (nrm_b m) i k + predictor (nrm_lv m) (a i k) c) |}
  end.
(** The units the model allows: any nonzero ones, but one for the 1PL model. *)
Definition units (s : list R) (x : irt) : Prop := (forall d, nth d s 1 <> 0) /\ match x with Opl _ => nth 0 s 1 = 1 | _ => True end.
(** [s] changes the signs of some latent variables. *)
Definition signs (s : list R) : Prop := Forall (fun x => x = 1 \/ x = -1) s.
