(** Model of the flexible monotone models and their torch modules: activation_functions.py,
    torch_modules/softplus_linear.py, torch_modules/negation_layer.py,
    torch_modules/monotone_polynomial.py, models/monotone_nn.py, models/monotone_polynomial.py,
    models/surprisal_spline.py (probabilities) and models/nested_logit.py (probabilities).
    Definitions only.  Simplification throughout: floats are reals. *)
From Verif Require Import Base RBase M_Logit.
Local Open Scope R_scope.

(** ** Activation functions *)
(** BoundedELU.forward, activation_functions.py:36-50: masks, three parts, weighted sum.  The two
    [torch.where] lines 45-46 only act on float overflow and are the identity on reals. Lines 36-37, [.float()] of a mask. *)
Definition indicator (b : bool) : R := if b then 1 else 0.
(** The comparisons of activation_functions.py:36-37. *)
Definition rleb (x y : R) : bool := if Rle_dec x y then true else false.
(** activation_functions.py:36-50. *)
Definition belu (alpha x : R) : R :=
  let neg_mask := indicator (rleb x (-1)) in
  let pos_mask := indicator (rleb 1 x) in
  let middle_mask := 1 - neg_mask - pos_mask in
  let neg_part := alpha * (exp (x + 1) - 1) - 1 in
  let pos_part := - alpha * (exp (- x + 1) - 1) + 1 in
  neg_mask * neg_part + pos_mask * pos_part + middle_mask * x.
(** BoundedELU.backward, activation_functions.py:78-91, for grad_output = 1. *)
Definition belu_backward (alpha x : R) : R :=
  let neg_mask := indicator (rleb x (-1)) in
  let pos_mask := indicator (rleb 1 x) in
  let middle_mask := 1 - neg_mask - pos_mask in
  neg_mask * (alpha * exp (x + 1)) + pos_mask * (alpha * exp (- x + 1)) + middle_mask * 1.

(** torch.nn.functional.softplus and elu (alpha = 1) over the reals. softplus_linear.py:118, torch_modules/monotone_polynomial.py:69-71. *)
Definition softplus (x : R) : R := ln (1 + exp x).
(** monotone_nn.py:243-244 and 248-249. *)
Definition elu (x : R) : R := if Rle_dec x 0 then exp x - 1 else x.

(** Strided slice [x[:, k::n]] of one row (k < n): positions k, k+n, ... below the length. monotone_nn.py:243-249. *)
Definition stride (n k : nat) (l : list R) : list R :=
  map (fun j => nth (j * n + k) l 0) (seq 0 ((length l + n - 1 - k) / n)).
(** [torch.stack(cols, dim=2).view(x.shape)] of one row: interleave equally long columns;
    [torch.stack] raises RuntimeError for unequal lengths. monotone_nn.py:246 and 250. *)
Definition interleave (cols : list (list R)) : result (list R) :=
  match cols with
  | [] => Err RuntimeError
  | c :: _ =>
      if forallb (fun d => (length d =? length c)%nat) cols
      then Ok (flat_map (fun j => map (fun d => nth j d 0) cols) (seq 0 (length c)))
      else Err RuntimeError
  end.
(** MonotoneNN._split_activation, monotone_nn.py:228-250. *)
Definition split_activation (bounded : bool) (x : list R) : result (list R) :=
  if bounded
  then interleave [map elu (stride 3 0 x); map (fun v => - elu (- v)) (stride 3 1 x); map (belu 1) (stride 3 2 x)]
  else interleave [map elu (stride 2 0 x); map (fun v => - elu (- v)) (stride 2 1 x)].

(** ** SoftplusLinear *)
(** State, softplus_linear.py:59-78.  [sl_zero_out] is zero_outputs as booleans. *)
Record spl := { sl_in : nat; sl_out : nat; sl_softplus : bool; sl_zero_out : list bool;
                sl_free : list (list bool); sl_raw : list R; sl_bias : list R }.
(** torch.cumsum of a vector of naturals. softplus_linear.py:86-87. *)
Fixpoint cumsum_from (acc : nat) (l : list nat) : list nat :=
  match l with [] => [] | x :: l' => (acc + x)%nat :: cumsum_from (acc + x) l' end.
(** softplus_linear.py:86-87. *)
Definition cumsum (l : list nat) : list nat := cumsum_from 0 l.
(** free_weights[oi:oi+og, ii:ii+ig] = True, softplus_linear.py:90. The slices of line 90. *)
Definition in_slice (start size i : nat) : bool := ((start <=? i) && (i <? start + size))%nat.
(** softplus_linear.py:90. *)
Definition set_block (ii ig oi og : nat) (w : list (list bool)) : list (list bool) :=
  mapi (fun o row => if in_slice oi og o then mapi (fun i b => if in_slice ii ig i then true else b) row else row) w.
(** separate_weights, softplus_linear.py:82-92: the loop over zip of the groups and their starts
    (cumsum minus size). The zip of line 89. *)
Fixpoint zip4 {A B C D} (a : list A) (b : list B) (c : list C) (d : list D) : list (A * B * C * D) :=
  match a, b, c, d with
  | x :: a', y :: b', z :: c', w :: d' => (x, y, z, w) :: zip4 a' b' c' d'
  | _, _, _, _ => []
  end.
(** softplus_linear.py:82-92. *)
Definition separate_weights (n_in n_out : nat) (sin sout : list nat) : list (list bool) :=
  fold_left (fun w '(ig, og, ii, oi) => set_block ii ig oi og w)
    (zip4 sin sout (zip_with Nat.sub (cumsum sin) sin) (zip_with Nat.sub (cumsum sout) sout))
    (repeat (repeat false n_in) n_out).
(** Even split of the outputs, softplus_linear.py:50-53. *)
Definition even_groups (n g : nat) : list nat :=
  (repeat (n / g + 1) (n mod g) ++ repeat (n / g) (g - n mod g))%nat.
(** Constructor, softplus_linear.py:41-80 (reset_parameters: zeros).  divmod by zero groups raises. *)
Definition spl_init (n_in n_out : nat) (sin sout : option (list nat)) (zin zout : option (list bool))
  (sp : bool) : result spl :=
  let zout := match zout with Some z => z | None => repeat false n_out end in
  let zin := match zin with Some z => z | None => repeat false n_in end in
  bind (match sin with
        | Some si =>
            if negb (list_sum si =? n_in)%nat then Err ValueError
            else match sout, si with
                 | None, [] => Err ZeroDivisionError
                 | _, _ =>
                     let so := match sout with Some so => so | None => even_groups n_out (length si) end in
                     if negb (list_sum so =? n_out)%nat then Err ValueError
                     else Ok (separate_weights n_in n_out si so)
                 end
        | None => match sout with
                  | Some _ => Err ValueError
                  | None => Ok (repeat (repeat true n_in) n_out)
                  end
        end) (fun fw =>
  let fw := zip_with (fun (z : bool) row => if z then map (fun _ => false) row else row) zout fw in
  let fw := map (fun row => set_mask zin false row) fw in
  Ok {| sl_in := n_in; sl_out := n_out; sl_softplus := sp; sl_zero_out := zout; sl_free := fw;
        sl_raw := repeat 0 (ctrue (concat fw)); sl_bias := repeat 0 (ctrue (map negb zout)) |}).
(** forward, softplus_linear.py:101-123, of one row. *)
Definition spl_forward (m : spl) (x : list R) : list R :=
  let weight := weight_matrix (sl_free m) (sl_in m) (if sl_softplus m then map softplus (sl_raw m) else sl_raw m) in
  let bias := full_bias (map negb (sl_zero_out m)) (sl_bias m) in
  zip_with Rplus (map (dot x) weight) bias.

(** ** NegationLayer *)
(** negation_layer.py:16-25 and forward 31-37, of one row. [rel] the related items, [ipi] inputs per item,
    [zero_out] the positions set to zero, [wp] weight_param. *)
Definition negation_weight (rel : list bool) (ipi : nat) (wp : list R) : list R :=
  mask_scatter (repeat_interleave ipi rel) (repeat_interleave ipi wp) (repeat 0 (length rel * ipi)).
(** negation_layer.py:31-37. *)
Definition negation_forward (rel : list bool) (ipi : nat) (zero_out : list bool) (wp : list R) (x : list R) : list R :=
  zip_with Rmult (set_mask zero_out 0 x) (negation_weight rel ipi wp).
(** all_item_weights, negation_layer.py:39-49. *)
Definition all_item_weights (rel : list bool) (wp : list R) : list R :=
  mask_scatter rel wp (repeat 0 (length rel)).

(** ** MonotoneNN *)
(** State of MonotoneNN, monotone_nn.py:93-193.  [n_sep_items] is separate == "items";
    [n_layers] and [n_neg] hold, per latent variable, the linear layers and the negation weights. *)
Record mnn := { n_cats : list nat; n_lv : nat; n_rel : list (list bool); n_hidden : list nat;
                n_sep_items : bool; n_negative : bool; n_bounded : bool; n_key : option (list nat);
                n_bias : list R; n_layers : list (list spl); n_neg : list (list R) }.
(** [self.items], base_irt_model.py:43. *)
Definition n_items (m : mnn) : nat := length (n_cats m).
(** [self.max_item_responses], base_irt_model.py:42. *)
Definition n_max (m : mnn) : nat := list_max (n_cats m).
(** [self.separations], monotone_nn.py:118-121. *)
Definition n_separations (m : mnn) : nat := if n_sep_items m then n_items m else (n_items m * n_max m)%nat.
(** A column of the relationships, monotone_nn.py:139. *)
Definition column {A} (dflt : A) (d : nat) (rows : list (list A)) : list A := map (fun r => nth d r dflt) rows.

(** zero outputs of a layer with [h] units per separation, monotone_nn.py:139-151, 159, 165-168. *)
Definition layer_zero_out (cats : list nat) (sep_items : bool) (rel : list bool) (h : nat) : list bool :=
  let M := list_max cats in
  if sep_items then repeat_interleave h (map negb rel)
  else zip_with orb (repeat_interleave h (missing_category cats M)) (repeat_interleave (h * M) (map negb rel)).
(** Layers 1, 2, ... given the previous hidden size and zero outputs, monotone_nn.py:156-180. *)
Fixpoint mnn_hidden_layers (cats : list nat) (sep_items : bool) (rel : list bool) (prev : nat) (zprev : list bool)
  (hs : list nat) : result (list spl) :=
  match hs with
  | [] => Ok []
  | h :: hs' =>
      let groups := if sep_items then length cats else (length cats * list_max cats)%nat in
      let zo := layer_zero_out cats sep_items rel h in
      bind (spl_init (prev * groups) (groups * h) (Some (repeat prev groups)) (Some (repeat h groups))
                     (Some zprev) (Some zo) true) (fun l =>
      bind (mnn_hidden_layers cats sep_items rel h zo hs') (fun ls => Ok (l :: ls)))
  end.
(** monotone_nn.py:139-180, one latent variable. *)
Definition mnn_layers (cats : list nat) (sep_items : bool) (rel : list bool) (hidden : list nat) : result (list spl) :=
  match hidden with
  | [] => Err IndexError
  | h :: hs =>
      let groups := if sep_items then length cats else (length cats * list_max cats)%nat in
      let zo := layer_zero_out cats sep_items rel h in
      bind (spl_init 1 (groups * h) None None None (Some zo) true) (fun l =>
      bind (mnn_hidden_layers cats sep_items rel h zo hs) (fun ls => Ok (l :: ls)))
  end.
(** Constructor given item_categories, monotone_nn.py:93-193. *)
Definition mnn_init (cats : list nat) (lv : nat) (rel : option (list (list bool))) (hidden : option (list nat))
  (key : option (list nat)) (sep_items negative bounded : bool) : result mnn :=
  bind (relationships (length cats) lv rel) (fun rel =>
  bind (match hidden with
        | None => Ok [if bounded then 3 else 2]%nat
        | Some h => if forallb (fun x => (x mod (if bounded then 3 else 2) =? 0)%nat) h then Ok h else Err ValueError
        end) (fun hidden =>
  bind (mapM (fun d => mnn_layers cats sep_items (column false d rel) hidden) (seq 0 lv)) (fun layers =>
  Ok {| n_cats := cats; n_lv := lv; n_rel := rel; n_hidden := hidden; n_sep_items := sep_items;
        n_negative := negative; n_bounded := bounded; n_key := key;
        n_bias := repeat 0 (list_sum cats); n_layers := layers;
        n_neg := map (fun d => repeat (1 / 100) (ctrue (column false d rel))) (seq 0 lv) |}))).

(** The loop over the linear layers, monotone_nn.py:198-203. *)
Fixpoint run_layers (bounded : bool) (ls : list spl) (x : list R) : result (list R) :=
  match ls with
  | [] => Ok x
  | l :: ls' => bind (split_activation bounded (spl_forward l x)) (run_layers bounded ls')
  end.
(** One latent variable, monotone_nn.py:198-210; the reshape to (separations, hidden_out) and sum. *)
Definition mnn_lv_output (m : mnn) (d : nat) (t : R) : result (list R) :=
  bind (run_layers (n_bounded m) (nth d (n_layers m) []) [t]) (fun y =>
  let s := map rsum (blocks (last (n_hidden m) O) y) in
  Ok (if n_negative m
      then negation_forward (column false d (n_rel m)) (if n_sep_items m then 1 else n_max m)
             (if n_sep_items m then repeat false (n_items m) else missing_category (n_cats m) (n_max m))
             (nth d (n_neg m) []) s
      else s)).
(** Cumulative sum of one row, torch.cumsum. monotone_nn.py:218. *)
Fixpoint rcumsum_from (acc : R) (l : list R) : list R :=
  match l with [] => [] | x :: l' => (acc + x) :: rcumsum_from (acc + x) l' end.
(** monotone_nn.py:218. *)
Definition rcumsum (l : list R) : list R := rcumsum_from 0 l.
(** The category part of the forward pass shared by MonotoneNN (without key), monotone_nn.py:217-226, and
    MonotonePolynomial, models/monotone_polynomial.py:102-107: cumsum over categories, bias, -inf. Lines 222-226 and 103-107. *)
Definition add_category_bias (cats : list nat) (bias out : list R) : list ext :=
  let missing := missing_category cats (list_max cats) in
  set_mask missing NInf (map Fin (zip_with Rplus out (full_bias (map negb missing) bias))).
(** monotone_nn.py:217-226, models/monotone_polynomial.py:102-107. *)
Definition cumulative_logits (cats : list nat) (bias out : list R) : list ext :=
  add_category_bias cats bias (concat (map rcumsum (blocks (list_max cats) out))).
(** With a key, monotone_nn.py:123-128 and 219-220: the mask of correct outputs (index_fill_ raises on an
    index out of range), then out[:, mask] = sums over each item's categories. *)
Definition key_mask (items M : nat) (key : list nat) : result (list bool) :=
  let idx := zip_with Nat.add (map (fun i => (i * M)%nat) (seq 0 items)) key in
  if forallb (fun j => (j <? items * M)%nat) idx
  then Ok (fold_left (fun m j => upd j true m) idx (repeat false (items * M)))
  else Err IndexError.
(** monotone_nn.py:219-226. *)
Definition key_logits (cats : list nat) (key : list nat) (bias out : list R) : result (list ext) :=
  let M := list_max cats in
  bind (key_mask (length cats) M key) (fun mask =>
  let sums := map rsum (blocks M out) in
  if (ctrue mask =? length sums)%nat
  then Ok (add_category_bias cats bias (mask_scatter mask sums out)) else Err RuntimeError).
(** forward, monotone_nn.py:195-226, of one latent score vector. The sum of line 212. *)
Definition vec_add (a b : list R) : list R := zip_with Rplus a b.
(** monotone_nn.py:195-226. *)
Definition mnn_forward1 (m : mnn) (t : list R) : result (list ext) :=
  bind (mapM (fun d => mnn_lv_output m d (nth d t 0)) (seq 0 (n_lv m))) (fun outs =>
  let out := fold_left vec_add outs (repeat 0 (n_separations m)) in
  let out := if n_sep_items m then repeat_interleave (n_max m) out else out in
  match n_key m with
  | None => Ok (cumulative_logits (n_cats m) (n_bias m) out)
  | Some key => key_logits (n_cats m) key (n_bias m) out
  end).
(** monotone_nn.py:195-226, every respondent. *)
Definition mnn_forward (m : mnn) (thetas : list (list R)) : result (list (list ext)) := mapM (mnn_forward1 m) thetas.
(** monotone_nn.py:252-267, base_irt_model.py:203-219. *)
Definition mnn_probabilities (m : mnn) (thetas : list (list R)) : result (list (list (list (option R)))) :=
  rmap (probabilities_from_output (n_items m) (n_max m)) (mnn_forward m thetas).

(** ** MonotonePolynomialModule *)
(** State, monotone_polynomial.py (torch_modules):36-66.  Tensors are functions of their indices:
    omega[0, d, o], alpha[i, d, o], tau[i, d, o]; [mp_rel d o] is relationship_matrix ([None] = no mask),
    [mp_dir] the learned directions when negative_relationships. *)
Record mpoly := { mp_k : nat; mp_in : nat; mp_out : nat;
                  mp_omega : nat -> nat -> R; mp_alpha : nat -> nat -> nat -> R; mp_tau : nat -> nat -> nat -> R;
                  mp_intercept : option (nat -> R); mp_rel : option (nat -> nat -> bool);
                  mp_dir : option (nat -> nat -> R); mp_shared : nat }.
(** Degree check and number of quadratic factors, lines 37-39. *)
Definition mpoly_degree (degree : nat) : result nat :=
  if Nat.even degree then Err ValueError else Ok ((degree - 1) / 2)%nat.
(** Entry (r, c) of the (2(i+1)+1) x (2(i+1)-1) matrix, lines 73-77. *)
Definition mp_matrix (alpha beta : R) (r c : nat) : R :=
  if (r =? c)%nat then 1 else if (r =? c + 1)%nat then -2 * alpha else if (r =? c + 2)%nat then alpha ^ 2 + beta else 0.
(** a = einsum('abio,bio->aio', matrix, a), line 78, for one (input, output) pair. *)
Definition mp_step (alpha beta : R) (a : list R) : list R :=
  map (fun r => rsum (map (fun c => mp_matrix alpha beta r c * nth c a 0) (seq 0 (length a)))) (seq 0 (length a + 2)).
(** torch_modules/monotone_polynomial.py:71-78. *)
Fixpoint mp_loop (n : nat) (alpha tau : nat -> R) (a : list R) : list R :=
  match n with O => a | S n' => mp_step (alpha n') (softplus (tau n')) (mp_loop n' alpha tau a) end.
(** effective_directions, lines 80-82 and 65: directions * directions_mask, repeated [shared] times. *)
Definition mp_direction (m : mpoly) (d o : nat) : R :=
  match mp_dir m with
  | None => 1
  | Some dir =>
      let q := (o / mp_shared m)%nat in
      dir d q * match mp_rel m with
                | Some rel => indicator (rel d (q * mp_shared m)%nat)
                | None => 1
                end
  end.
(** torch_modules/monotone_polynomial.py:85-86. *)
Definition mp_masked (m : mpoly) (d o : nat) : bool :=
  match mp_rel m with Some rel => negb (rel d o) | None => false end.
(** torch_modules/monotone_polynomial.py:80-86. *)
Definition mp_scale (m : mpoly) (d o : nat) (a : list R) : list R :=
  map (fun x => if mp_masked m d o then 0 else x * mp_direction m d o) a.
(** forward, lines 68-95, of one row [x]. Lines 69-89. *)
Definition mp_coefs (m : mpoly) (d o : nat) : list R :=
  let a := mp_loop (mp_k m) (fun i => mp_alpha m i d o) (fun i => mp_tau m i d o) [softplus (mp_omega m d o)] in
  mapi (fun j x => x / INR (j + 1)) (mp_scale m d o a).
(** torch_modules/monotone_polynomial.py:90-92. *)
Definition poly_eval (b : list R) (x : R) : R := rsum (mapi (fun j c => x ^ (j + 1) * c) b).
(** torch_modules/monotone_polynomial.py:68-95. *)
Definition mpoly_forward (m : mpoly) (x : list R) : list R :=
  map (fun o => rsum (mapi (fun d xd => poly_eval (mp_coefs m d o) xd) (firstn (mp_in m) x))
                + match mp_intercept m with Some c => c o | None => 0 end) (seq 0 (mp_out m)).
(** get_polynomial_coefficients, lines 97-126: here the loop divides by (i + 1). *)
Fixpoint mp_loop_reported (n : nat) (alpha tau : nat -> R) (a : list R) : list R :=
  match n with
  | O => a
  | S n' => map (fun x => x / INR (n' + 1)) (mp_step (alpha n') (softplus (tau n')) (mp_loop_reported n' alpha tau a))
  end.
(** torch_modules/monotone_polynomial.py:97-126. *)
Definition mp_reported (m : mpoly) (d o : nat) : list R :=
  mp_scale m d o
    (mp_loop_reported (mp_k m) (fun i => mp_alpha m i d o) (fun i => mp_tau m i d o) [softplus (mp_omega m d o)]).

(** ** MonotonePolynomial, models/monotone_polynomial.py:70-107 *)
(** State, lines 70-95. *)
Record mpm := { q_cats : list nat; q_sep_items : bool; q_bias : list R; q_poly : mpoly }.
(** [self.max_item_responses], base_irt_model.py:42. *)
Definition q_max (m : mpm) : nat := list_max (q_cats m).
(** [self.items], base_irt_model.py:43. *)
Definition q_items (m : mpm) : nat := length (q_cats m).
(** Constructor given item_categories, lines 59-95, with the module's starting values
    (torch_modules/monotone_polynomial.py:46-64); [dir0] the random starting directions.  The
    relationship matrix is item_theta_relationships transposed and repeated per category. *)
Definition mpm_init (cats : list nat) (lv : nat) (rel : option (list (list bool))) (degree : nat)
  (sep_items negative : bool) (dir0 : nat -> nat -> R) : result mpm :=
  bind (relationships (length cats) lv rel) (fun rel =>
  let shared := if sep_items then 1%nat else list_max cats in
  bind (mpoly_degree degree) (fun k =>
  Ok {| q_cats := cats; q_sep_items := sep_items; q_bias := repeat 0 (list_sum cats);
        q_poly := {| mp_k := k; mp_in := lv; mp_out := length cats * shared;
                     mp_omega := fun _ _ => 0; mp_alpha := fun _ _ _ => 0; mp_tau := fun _ _ _ => -5;
                     mp_intercept := None;
                     mp_rel := Some (fun d o => nth d (nth (o / shared) rel []) false);
                     mp_dir := if negative then Some dir0 else None; mp_shared := shared |} |})).
(** models/monotone_polynomial.py:97-107, one respondent. *)
Definition mpm_forward1 (m : mpm) (t : list R) : list ext :=
  let out := mpoly_forward (q_poly m) t in
  let out := if q_sep_items m then repeat_interleave (q_max m) out else out in
  cumulative_logits (q_cats m) (q_bias m) out.
(** models/monotone_polynomial.py:109-124. *)
Definition mpm_probabilities (m : mpm) (thetas : list (list R)) :=
  probabilities_from_output (q_items m) (q_max m) (map (mpm_forward1 m) thetas).
(** item_theta_relationship_directions, lines 127-138: sign of direction times mask; ones when the model has
    no directions. [sign()], line 137. *)
Definition rsign (x : R) : Z := if Rlt_dec 0 x then 1%Z else if Rlt_dec x 0 then (-1)%Z else 0%Z.
(** models/monotone_polynomial.py:127-138. *)
Definition mpm_directions (m : mpm) (i d : nat) : Z :=
  match mp_dir (q_poly m) with
  | None => 1%Z
  | Some dir =>
      rsign (dir d i * match mp_rel (q_poly m) with
                       | Some rel => indicator (rel d (i * mp_shared (q_poly m))%nat)
                       | None => 1
                       end)
  end.

(** ** SurprisalSpline *)
(** spline_mask for one latent variable and item, surprisal_spline.py:95-99: [related], and the first
    M - K of the M - 1 columns switched off. *)
Definition surprisal_mask (M K : nat) (related : bool) : list bool :=
  mapi (fun c b => if (c <? M - K)%nat then false else b) (repeat related (M - 1)).
(** all_coef of one latent variable and item, lines 125-128: coefficients through softplus where the mask
    is on, zero elsewhere, then cumsum over the bases.  [coef b c] is the raw coefficient of basis b and
    column c. *)
Definition surprisal_coef (M K : nat) (related : bool) (coef : nat -> nat -> R) (b c : nat) : R :=
  sumn (S b) (fun b' => if nth c (surprisal_mask M K related) false then softplus (coef b' c) else 0).
(** Lines 130-131: [basis d b] are the basis function values of latent variable [d] (computed by the
    external package splinetorch, hence an input), [rel d] whether the item is related to it. *)
Definition surprisal (lv nb M K : nat) (rel : nat -> bool) (basis : nat -> nat -> R) (coef : nat -> nat -> nat -> R)
  : list R :=
  map (fun c => sumn lv (fun d => sumn nb (fun b => basis d b * surprisal_coef M K (rel d) (coef d) b c)))
      (seq 0 (M - 1)).
(** Lines 133-137. *)
Definition surprisal_probabilities (s : list R) : list R :=
  let a := 1 :: map (fun c => 1 / exp c) (rcumsum s) in
  let b := map (fun x => 1 - 1 / exp x) s ++ [1] in
  rev (zip_with Rmult a b).

(** ** NestedLogit *)
(** correct_mask with its bounds check, nested_logit.py:101-106. *)
Definition nested_key_check (cats : list nat) (key : list Z) : result unit :=
  bind (mapiM (fun i K => match nth_error key i with
                          | None => Err IndexError
                          | Some z => if (z <? 0)%Z || (Z.of_nat K <=? z)%Z then Err ValueError else Ok tt
                          end) cats) (fun _ => Ok tt).
(** incorrect_indices_map row of an item with key [c], nested_logit.py:139-147. *)
Definition incorrect_map (M c : nat) : list nat := mask_select (map (fun k => negb (k =? c)%nat) (seq 0 M)) (seq 0 M).
(** Lines 211-234 for one respondent and item: scatter of the correct probability, scatter_add of the
    scaled conditional probabilities. nested_logit.py:230-234. *)
Definition scatter_add (idx : list nat) (src : list (option R)) (l : list (option R)) : list (option R) :=
  fold_left (fun l iv => upd (fst iv) (olift2 Rplus (nth (fst iv) l None) (snd iv)) l) (combine idx src) l.
(** nested_logit.py:211-234. *)
Definition nested_item (M c : nat) (p_correct p_incorrect : option R) (cond : list (option R)) : list (option R) :=
  let scaled := map (fun p => olift2 Rmult p p_incorrect) cond in
  scatter_add (incorrect_map M c) scaled (upd c p_correct (repeat (Some 0) M)).
(** forward for a whole batch: [correct] respondents x items x 2, [cond] respondents x items x (M-1). nested_logit.py:160-241. *)
Definition nested_probabilities (M : nat) (key : list nat) (correct cond : list (list (list (option R))))
  : list (list (list (option R))) :=
  zip_with (fun cr cd => zip_with (fun ck ci => nested_item M (fst ck) (nth 1 (snd ck) None) (nth 0 (snd ck) None) ci)
                                  (combine key cr) cd) correct cond.
