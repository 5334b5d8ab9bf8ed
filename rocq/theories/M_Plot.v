(** Model of irtorch/plotter.py: the points of the curves and surfaces drawn by item_entropy, log_likelihood,
    item_probabilities, information, expected_sum_score, scale_transformations, and the scores drawn by
    latent_score_distribution and training_history.  Definitions only.  A figure is its list of points; titles,
    labels, colours and layout are not modelled.  What is drawn (entropies, probabilities, information, scores) is
    a function of the score rows and an input of the model.  Floats are reals; a score of minus infinity or NaN
    after a transformation is outside the model. *)
From Coq Require Import String.
From Verif Require Import Base RBase M_Data M_CV M_Logit M_Lik M_Est M_Scale M_Eval.
Import List.
Local Open Scope R_scope.
Local Open Scope list_scope.

(** What the plotter reads of a model: the number of latent variables, the attached scales with their [invertible]
    flags (scale.py:13-21), and [algorithm.training_theta_scores] ([None]: absent or not stored). *)
Record pmodel := PModel { pl_dim : nat; pl_scales : list (bool * scale); pl_training : option (list (list R)) }.
(** BaseIRTModel.transform_theta, base_irt_model.py:130-146. *)
Definition pl_transform (m : pmodel) : list (list R) -> result (list (list R)) := transform_theta (map snd (pl_scales m)).
(** BaseIRTModel.inverse_transform_theta, base_irt_model.py:148-164. *)
Definition pl_inverse (m : pmodel) : list (list R) -> result (list (list R)) := inverse_transform_theta (map snd (pl_scales m)).
(** [self.model.scale] as a condition, plotter.py:249 and 907. *)
Definition has_scale (m : pmodel) : bool := match pl_scales m with [] => false | _ => true end.

(** A call's arguments: latent_variables, theta_range, second_theta_range, steps, fixed_thetas, rescale.
    Simplification: [steps] is a natural number (torch refuses negative ones). The signatures of plotter.py, e.g. 178-192 (item_entropy). *)
Record pcall := PCall { pc_vars : list Z; pc_range : option (list R); pc_second : option (list R);
                        pc_steps : option nat; pc_fixed : option (list R); pc_rescale : bool }.

(** The checks at the head of every function, 228-238, 348-358, 571-581, 709-719, 830-840. *)
Definition plot_checks (dim : nat) (c : pcall) : result unit :=
  if (2 <? length (pc_vars c))%nat then Err TypeError
  else if (dim <? length (pc_vars c))%nat then Err TypeError
  else if negb (forallb (fun v => (v <=? Z.of_nat dim)%Z) (pc_vars c)) then Err TypeError
  else if match pc_range c with Some r => negb (length r =? 2)%nat | None => false end then Err TypeError
  else if ((length (pc_vars c) =? 1)%nat && match pc_second c with Some r => negb (length r =? 2)%nat | None => false end)%bool then Err TypeError
  else Ok tt.
(** [100 if len(latent_variables) == 1 else 18] and [200 ... 25], lines 239-240 and 584-585. *)
Definition default_steps (one two : nat) (c : pcall) : nat :=
  match pc_steps c with Some n => n | None => if (length (pc_vars c) =? 1)%nat then one else two end.

(** [theta - 1 for theta in latent_variables] as positions; a negative index counts from the end. *)
Definition latent_indices (dim : nat) (vars : list Z) : result (list nat) :=
  mapM (fun v => match norm_index dim (v - 1) with Some j => Ok j | None => Err IndexError end) vars.
(** Lines 905-906. *)
Definition free_mask (dim : nat) (idx : list nat) : list bool := map (fun j => negb (existsb (Nat.eqb j) idx)) (seq 0 dim).
(** [x[:, mask].median(dim=0).values]. *)
Definition medians (mask : list bool) (rows : list (list R)) : result (list R) :=
  match rows with
  | [] => Err IndexError
  | _ => Ok (mask_select mask (map (fun j => median (column 0 j rows)) (seq 0 (length mask))))
  end.
(** [(x[:, j].min(), x[:, j].max())]. plotter.py:931-947. *)
Definition extent (j : nat) (rows : list (list R)) : result (R * R) :=
  match rows with
  | [] => Err RuntimeError
  | _ => Ok (rmin_list (column 0 j rows), rmax_list (column 0 j rows))
  end.
(** [r[0], r[1]] of a given range. *)
Definition given_range (r : list R) : result (R * R) := match r with lo :: hi :: _ => Ok (lo, hi) | _ => Err IndexError end.
(** [theta_grid[:, mask] = fixed_thetas]: one value is broadcast. plotter.py:952 and 963. *)
Definition put_fixed (mask : list bool) (fixed : list R) (rows : list (list R)) : result (list (list R)) :=
  let k := length (mask_select mask mask) in
  if (length fixed =? k)%nat then Ok (map (mask_scatter mask fixed) rows)
  else match fixed with
       | [x] => Ok (map (mask_scatter mask (repeat x k)) rows)
       | _ => Err RuntimeError
       end.
(** Lines 907-923: the training scores the defaults are taken from, and whether they are transformed. *)
Definition use_transformed (m : pmodel) (rescale : bool) : bool :=
  (has_scale m && forallb fst (pl_scales m) && rescale && match pl_training m with Some _ => true | None => false end)%bool.
(** plotter.py:915-923. *)
Definition theta_source (m : pmodel) (rescale : bool) : result (option (list (list R))) :=
  match pl_training m with
  | None => Ok None
  | Some t => if use_transformed m rescale then rmap Some (pl_transform m t) else Ok (Some t)
  end.
(** Lines 931-947. *)
Definition range_of (source : option (list (list R))) (j : nat) (given : option (list R)) : result (R * R) :=
  match given, source with
  | Some r, _ => given_range r
  | None, Some rows => extent j rows
  | None, None => Ok (-3, 3)
  end.
(** _get_theta_grid_for_plotting, 904-967.  An empty tuple of variables fails (with TypeError or IndexError). *)
Definition plot_grid (m : pmodel) (steps : nat) (c : pcall) : result (list (list R)) :=
  let dim := pl_dim m in
  bind (latent_indices dim (pc_vars c)) (fun idx =>
  let mask := free_mask dim idx in
  bind (theta_source m (pc_rescale c)) (fun source =>
  bind (match pc_fixed c, source with
        | Some f, _ => Ok f
        | None, Some rows => medians mask rows
        | None, None => Ok (mask_select mask (repeat 0 dim))
        end) (fun fixed =>
  bind (match idx with
        | [i] =>
            bind (range_of source i (pc_range c)) (fun r =>
            put_fixed mask fixed (map (fun x => repeat x dim) (linspace (fst r) (snd r) steps)))
        | [i; j] =>
            bind (range_of source i (pc_range c)) (fun r =>
            bind (range_of source j (pc_second c)) (fun s =>
            put_fixed mask fixed (map (fun p => upd j (snd p) (upd i (fst p) (repeat 0 dim)))
              (flat_map (fun x => map (fun y => (x, y)) (linspace (fst s) (snd s) steps)) (linspace (fst r) (snd r) steps)))))
        | _ => Err TypeError
        end) (fun grid =>
  if use_transformed m (pc_rescale c) then pl_inverse m grid else Ok grid)))).

(** Lines 249-252 (also 368-372, 602-605, 856-859): the scores on the axes, before the columns are chosen. *)
Definition shown_rows (m : pmodel) (rescale : bool) (grid : list (list R)) : result (list (list R)) :=
  if (rescale && has_scale m)%bool then pl_transform m grid else Ok grid.

(** A drawn figure: the points of a line, or of a surface row by row. plotter.py:268-290. *)
Inductive figure (V : Type) := Line (pts : list (R * V)) | Surface (pts : list (list (R * R * V))).
Arguments Line {V}. Arguments Surface {V}.

(** The trimming of lines 258-266: everything before the last minimum is dropped or, when the last point is a
    minimum, everything from the first minimum on. *)
Definition positions_of_min (xs : list R) : list nat :=
  filter (fun i => if Req_EM_T (nth i xs 0) (rmin_list xs) then true else false) (seq 0 (length xs)).
(** plotter.py:258-266. *)
Definition trim {V} (xs : list R) (ys : list V) : result (list (R * V)) :=
  match xs with
  | [] => Err RuntimeError
  | _ =>
      let at_min := positions_of_min xs in
      let cut {A} (l : list A) := if (last at_min O =? length xs - 1)%nat then firstn (hd O at_min) l else skipn (last at_min O) l in
      if (length (cut xs) =? length (cut ys))%nat then Ok (combine (cut xs) (cut ys)) else Err ValueError
  end.
(** With [squeeze_()] first (257): a single point becomes a 0-dimensional tensor, of which no minimum is found. *)
Definition squeezed_trim {V} (xs : list R) (ys : list V) : result (list (R * V)) :=
  match xs with [_] => Err IndexError | _ => trim xs ys end.
(** Lines 280-284: three square matrices. *)
Definition surface {V} (xs zs : list R) (ys : list V) : result (figure V) :=
  let n := Nat.sqrt (length ys) in
  if ((length xs =? n * n) && (length zs =? n * n) && (length ys =? n * n))%nat%bool
  then Ok (Surface (blocks n (combine (combine xs zs) ys)))
  else Err RuntimeError.
(** item_entropy, 228-290, and expected_sum_score, 830-902; [curve] gives the entropies or the expected scores of
    the selected items. *)
Definition curve_plot {V} (m : pmodel) (curve : list (list R) -> result (list V)) (c : pcall) : result (figure V) :=
  bind (plot_checks (pl_dim m) c) (fun _ =>
  bind (plot_grid m (default_steps 100 18 c) c) (fun grid =>
  bind (curve grid) (fun ys =>
  bind (shown_rows m (pc_rescale c) grid) (fun shown =>
  bind (latent_indices (pl_dim m) (pc_vars c)) (fun idx =>
  match idx with
  | [i] => rmap Line (squeezed_trim (column 0 i shown) ys)
  | [i; j] => surface (column 0 i shown) (column 0 j shown) ys
  | _ => Err TypeError
  end))))).
(** item_probabilities, 571-655 and 1058-1066, 1171-1189: the default fixed values are the medians of the
    untransformed training scores (591-595); no [squeeze_]. *)
Definition probability_plot {V} (m : pmodel) (curve : list (list R) -> result (list V)) (c : pcall) : result (figure V) :=
  bind (plot_checks (pl_dim m) c) (fun _ =>
  bind (latent_indices (pl_dim m) (pc_vars c)) (fun idx =>
  let mask := free_mask (pl_dim m) idx in
  bind (match pc_fixed c with
        | None => match pl_training m with Some t => medians mask t | None => Ok (mask_select mask (repeat 0 (pl_dim m))) end
        | Some f => if (length f =? pl_dim m - length (pc_vars c))%nat then Ok f else Err TypeError
        end) (fun fixed =>
  bind (plot_grid m (default_steps 200 25 c)
         (PCall (pc_vars c) (pc_range c) (pc_second c) (pc_steps c) (Some fixed) (pc_rescale c))) (fun grid =>
  bind (shown_rows m (pc_rescale c) grid) (fun shown =>
  bind (curve grid) (fun ys =>
  match idx with
  | [i] => rmap Line (trim (column 0 i shown) ys)
  | [i; j] => surface (column 0 i shown) (column 0 j shown) ys
  | _ => Err TypeError
  end)))))).
(** information, 709-777.  With a scale attached all columns are kept (733).  With one variable they are squeezed:
    of a model with one latent variable the column remains; of a model with several, two-dimensional scores are
    left which no DataFrame column takes (ValueError; a single row becomes a vector and the information a number,
    which cannot be sliced: IndexError).  With two variables the first two columns are drawn (769-770). *)
Definition information_plot (m : pmodel) (degrees : bool) (info : list (list R) -> result (list R)) (c : pcall) : result (figure R) :=
  bind (plot_checks (pl_dim m) c) (fun _ =>
  if (negb degrees && (1 <? pl_dim m)%nat)%bool then Err ValueError else
  bind (plot_grid m (default_steps 100 18 c) c) (fun grid =>
  bind (shown_rows m (pc_rescale c) grid) (fun shown =>
  bind (info grid) (fun ys =>
  bind (latent_indices (pl_dim m) (pc_vars c)) (fun idx =>
  let scaled := (pc_rescale c && has_scale m)%bool in
  match idx with
  | [i] =>
      if scaled
      then if (pl_dim m =? 1)%nat then rmap Line (squeezed_trim (column 0 0 shown) ys)
           else match shown with [] => Err RuntimeError | [_] => Err IndexError | _ => Err ValueError end
      else rmap Line (squeezed_trim (column 0 i shown) ys)
  | [i; j] =>
      if scaled then surface (column 0 0 shown) (column 0 1 shown) ys
      else surface (column 0 i shown) (column 0 j shown) ys
  | _ => Err TypeError
  end))))).
(** [item_mask[[item - 1 for item in items]] = 1], 379-380, 740-741. *)
Definition item_mask (items : nat) (chosen : list Z) : result (list bool) :=
  rmap (fun idx => map (fun j => existsb (Nat.eqb j) idx) (seq 0 items))
    (mapM (fun v => match norm_index items (v - 1) with Some j => Ok j | None => Err IndexError end) chosen).
(** [x[:, mask].sum(dim=1)] of a cells matrix: [sum], not [nansum]. *)
Definition masked_sums {A B} (sum : list A -> B) (mask : option (list bool)) (rows : list (list A)) : list B :=
  map (fun r => sum (match mask with None => r | Some k => mask_select k r end)) rows.
(** The information that is drawn, 739-744: of the chosen items, or of the test. *)
Definition drawn_information (items : nat) (item_info : list (list R) -> result (list (list R)))
  (test_info : list (list R) -> result (list R)) (chosen : option (list Z)) (grid : list (list R)) : result (list R) :=
  match chosen with
  | None => test_info grid
  | Some l => bind (item_mask items l) (fun k => bind (item_info grid) (fun rows => Ok (masked_sums rsum (Some k) rows)))
  end.
(** The expected scores that are drawn, 848-853: columns in the order given, repeated when repeated. *)
Definition drawn_scores (items : nat) (item_scores : list (list R) -> result (list (list R)))
  (test_scores : list (list R) -> result (list R)) (chosen : option (list Z)) (grid : list (list R)) : result (list R) :=
  match chosen with
  | None => test_scores grid
  | Some l =>
      bind (item_mask items l) (fun _ =>
      bind (item_scores grid) (fun rows =>
      bind (mapM (fun v => match norm_index items (v - 1) with Some j => Ok j | None => Err IndexError end) l) (fun idx =>
      Ok (map (fun r => rsum (map (fun j => nth j r 0) idx)) rows))))
  end.

(** log_likelihood, 348-437.  [em] is the model, [expected] its expected sum scores.  [data] is one row. *)
Definition drawn_log_likelihood (em : emodel) (data : list cell) (chosen : option (list Z)) (grid : list (list R)) : result (list fl) :=
  bind (log_likelihood em grid (Wide (length data) (repeat data (length grid))) "none" LAll) (fun st =>
  match st with
  | FFull rows =>
      bind (match chosen with None => Ok None | Some l => rmap Some (item_mask (em_items em) l) end) (fun k =>
      Ok (masked_sums fsum k rows))
  | _ => Err TypeError (* not reached *)
  end).
(** [expected_sum_score=True] puts one column of expected sum scores on the axis (366-367); a surface then asks for
    a second column (430). *)
Definition log_likelihood_plot (m : pmodel) (em : emodel) (expected : list (list R) -> result (list R)) (data : list cell)
  (chosen : option (list Z)) (expected_axis : bool) (c : pcall) : result (figure fl) :=
  bind (plot_checks (pl_dim m) c) (fun _ =>
  bind (plot_grid m (default_steps 100 18 c) c) (fun grid =>
  bind (latent_indices (pl_dim m) (pc_vars c)) (fun idx =>
  bind (if expected_axis then rmap (fun e => [e]) (expected grid)
        else rmap (fun rows => map (fun i => column 0 i rows) idx) (shown_rows m (pc_rescale c) grid)) (fun axes =>
  bind (drawn_log_likelihood em data chosen grid) (fun ys =>
  match idx, axes with
  | [_], [xs] => rmap Line (squeezed_trim xs ys)
  | [_; _], [xs; zs] => surface xs zs ys
  | [_; _], [_] => Err IndexError
  | _, _ => Err TypeError
  end))))).
(** The mark "Observed sum score", 408-414: [data.sum()], of the response codes. *)
Definition observed_mark (data : list cell) : cell := fold_left (fun a c => match a, c with Some x, Some y => Some (x + y)%Z | _, _ => None end) data (Some 0%Z).

(** scale_transformations, 1375-1416: one line per latent variable of the model. *)
Definition scale_plot (m : pmodel) (var : Z) (range : option (list R)) (steps : option nat) (fixed : option (list R))
  : result (list (list (R * R))) :=
  if (Z.of_nat (pl_dim m) <? var)%Z then Err TypeError
  else if match range with Some r => negb (length r =? 2)%nat | None => false end then Err TypeError
  else
    bind (plot_grid m (match steps with Some n => n | None => 100%nat end) (PCall [var] range None steps fixed false)) (fun grid =>
    if has_scale m then
      bind (pl_transform m grid) (fun shown =>
      bind (latent_indices (pl_dim m) [var]) (fun idx =>
      Ok (map (fun d => combine (column 0 (hd O idx) grid) (column 0 d shown)) (seq 0 (pl_dim m)))))
    else Err ValueError).

(** training_history, 48-90: the dictionary of loss lists ([train_loss], [validation_loss], perhaps others); one line
    per non-empty one of the two, numbered from 1. *)
Definition history_plot (history : list (string * list R)) : result (list (string * list (nat * R))) :=
  if forallb (fun kv => (length (snd kv) =? 0)%nat) history then Err AttributeError
  else
    let frame (key label : string) :=
      match find (fun kv => String.eqb (fst kv) key) history with
      | Some (_, ((_ :: _) as losses)) => [(label, combine (seq 1 (length losses)) losses)]
      | _ => []
      end in
    match frame "train_loss"%string "Training"%string ++ frame "validation_loss"%string "Validation"%string with
    | [] => Err ValueError
    | frames => Ok frames
    end.
(** latent_score_distribution, 141-176 and 1250-1265: the scores handed to the histogram.  [scores] has [cols]
    columns; they are given or estimated before.  Of a single respondent, one variable is squeezed to a number, of
    which no data frame is made (1259, 1274). *)
Inductive distribution := OneVariable (xs : list R) | TwoVariables (xs : list (R * R)).
(** plotter.py:141-176 and 1250-1265. *)
Definition distribution_plot (dim cols : nat) (vars : list Z) (scores : list (list R)) : result distribution :=
  if (2 <? length vars)%nat then Err ValueError
  else if (dim <? length vars)%nat then Err ValueError
  else
    bind (latent_indices cols vars) (fun idx =>
    match idx with
    | [i] => match scores with [_] => Err ValueError | _ => Ok (OneVariable (column 0 i scores)) end
    | [i; j] => Ok (TwoVariables (combine (column 0 i scores) (column 0 j scores)))
    | _ => Err IndexError
    end).
