(** Model of irtorch/evaluator.py: data and score inputs, residuals, accuracy, predictions, infit and outfit,
    log-likelihoods, groups of respondents.  Definitions only.  Responses are cells (NaN and -1 are missing);
    NaN results are [None].  The model's item probabilities are a table of reals (respondents x items x
    categories) or a function giving the rows of one respondent. *)
From Coq Require Import String.
From Verif Require Import Base RBase M_Data M_Logit M_Lik M_Est M_Stat M_Grid.
Local Open Scope R_scope.
Local Open Scope list_scope.

Notation nanr := (option R).

(** _evaluate_data_theta_input, 53-70: the training data by default, scores estimated from the data by default. *)
Definition evaluate_input {D T} (train : D) (latent_scores : D -> result T) (data : option D) (theta : option T) : result (D * T) :=
  let d := match data with Some d => d | None => train end in
  bind (match theta with Some t => Ok t | None => latent_scores d end) (fun t => Ok (d, t)).

(** Two matrices of the same shape.  Simplification: torch would broadcast a single row or column; here any
    mismatch is a RuntimeError. As lines 186 and 299 need. *)
Definition same_shape {A B} (a : list (list A)) (b : list (list B)) : bool :=
  ((length a =? length b)%nat && forallb (fun p => (length (fst p) =? length (snd p))%nat) (combine a b))%bool.
(** Elementwise operations of two matrices, lines 186, 299, 465. *)
Definition zip2 {A B C} (f : A -> B -> C) (a : list (list A)) (b : list (list B)) : result (list (list C)) :=
  if same_shape a b then Ok (zip_with (zip_with f) a b) else Err RuntimeError.

(** [x.nanmean()] of a vector. Lines 190-194, 309, 534. *)
Definition finite (l : list nanr) : list R := flat_map (fun c : nanr => match c with Some x => [x] | None => [] end) l.
(** [nanmean], lines 190-194 and 309. *)
Definition nanmean_r (l : list nanr) : nanr := match finite l with [] => None | o => Some (rmean o) end.
(** The matrix itself, one value per item or respondent, or one value. Results of lines 189-196 and 302-309. *)
Inductive stat := Full (m : list (list nanr)) | Vec (l : list nanr) | One (x : nanr).
(** [dim=0], lines 192 and 303: column by column. *)
Definition over_respondents {A B} (d : A) (f : list A -> B) (cols : nat) (m : list (list A)) : list B := map (fun j => f (column d j m)) (seq 0 cols).

(** ** Residuals, 172-196.  Returns the outcome and the caller's tensor afterwards: line 175 assigns into it
    ([data.contiguous()] is the same tensor when it is already contiguous). The argument average_over, 189-196. *)
Inductive averaging := AvItems | AvRespondents | AvEverything | AvOther.
(** Line 183: the probability of the response given, a negative index counting from the end. *)
Definition chosen_probability (p : list R) (c : cell) : result R :=
  match c with
  | None => Err RuntimeError (* not reached: NaN was replaced before *)
  | Some z => match norm_index (length p) z with Some k => Ok (nth k p 0) | None => Err IndexError end
  end.
(** A response as a number, lines 186 and 451. *)
Definition cell_value_r (c : cell) : nanr := option_map IZR c.
(** Lines 176-186. *)
Definition raw_residuals (cats : nat) (mc : option (list Z)) (probs : list (list (list R))) (data : wide cell) : result (list (list nanr)) :=
  match mc with
  | Some _ =>
      if same_shape probs (w_rows data)
      then mapM (fun pr => mapM (fun pc => rmap (fun p => Some (1 - p)) (chosen_probability (fst pc) (snd pc))) (combine (fst pr) (snd pr)))
             (combine probs (w_rows data))
      else Err RuntimeError
  | None =>
      bind (expected_item_scores (w_cols data) cats mc (some3 probs)) (fun e =>
      zip2 (fun c x => olift2 Rminus (cell_value_r c) x) (w_rows data) e)
  end.
(** Lines 189-196. *)
Definition average (av : averaging) (cols : nat) (m : list (list nanr)) : stat :=
  match av with
  | AvItems => Vec (map nanmean_r m)
  | AvRespondents => Vec (over_respondents None nanmean_r cols m)
  | AvEverything => One (nanmean_r (concat m))
  | AvOther => Full m
  end.
(** Lines 172-196. *)
Definition residuals (cats : nat) (mc : option (list Z)) (probs : list (list (list R))) (data : wide cell) (av : averaging)
  : result stat * wide cell :=
  let mask := map (map missing_cell) (w_rows data) in
  let data' := Wide (w_cols data) (map (map nan_to_m1) (w_rows data)) in
  (bind (raw_residuals cats mc probs data') (fun r =>
   bind (zip2 (fun (b : bool) x => if b then None else x) mask r) (fun r =>
   Ok (average av (w_cols data) r))), data').

(** ** Accuracy, 296-309, and predictions, 352-391 *)
(** The argument level, 302-307 and 515-521. *)
Inductive level := LItem | LRespondent | LAll.
(** torch.argmax over the categories of every cell. Lines 299 and 355. *)
Definition rargmax (p : list R) : result nat := fargmax (map (fun x => Some (Fin x)) p).
(** Lines 298-299 and 354-355. *)
Definition predicted (probs : list (list (list R))) : result (list (list nat)) := mapM (mapM rargmax) probs.
(** The comparisons with data of lines 299 and 367. *)
Definition says (c : cell) (k : nat) : bool := match c with Some z => (z =? Z.of_nat k)%Z | None => false end.
(** Lines 299-300. *)
Definition hit (k : nat) (c : cell) : nanr := if missing_cell c then None else Some (if says c k then 1 else 0).
(** Lines 302-309. *)
Definition by_level (lv : level) (cols : nat) (m : list (list nanr)) : stat :=
  match lv with
  | LItem => Vec (over_respondents None nanmean_r cols m)
  | LRespondent => Vec (map nanmean_r m)
  | LAll => One (nanmean_r (concat m))
  end.
(** Lines 296-309. *)
Definition accuracy (probs : list (list (list R))) (data : wide cell) (lv : level) : result stat :=
  bind (predicted probs) (fun pred =>
  bind (zip2 hit pred (w_rows data)) (fun h =>
  Ok (by_level lv (w_cols data) h))).
(** Rows with an observed response, [x[~missing_mask[:, item], item]]. Lines 366-367. *)
Definition observed_rows (pred : list nat) (col : list cell) : list (nat * cell) :=
  filter (fun p => negb (missing_cell (snd p))) (combine pred col).
(** Lines 366-374: precision, recall, F1 and weight of one category. *)
Definition ratio0 (tp other : nat) : R := if (tp =? 0)%nat then 0 else INR tp / INR (tp + other).
(** Line 374. *)
Definition f1_score (p r : R) : R := if Req_EM_T (p * r) 0 then 0 else 2 * p * r / (p + r).
(** [sum()] of a boolean vector, lines 368-371. *)
Definition count {A} (f : A -> bool) (l : list A) : nat := length (filter f l).
(** Lines 368 and 372-374. *)
Record category_scores := CatScores { cs_precision : R; cs_recall : R; cs_f1 : R; cs_weight : nanr }.
(** Lines 366-374. *)
Definition category_metrics (rows : list (nat * cell)) (k : nat) : category_scores :=
  let pred (p : nat * cell) := (fst p =? k)%nat in
  let obs (p : nat * cell) := says (snd p) k in
  let tp := count (fun p => obs p && pred p)%bool rows in
  let fp := count (fun p => negb (obs p) && pred p)%bool rows in
  let fn := count (fun p => obs p && negb (pred p))%bool rows in
  let precision := ratio0 tp fp in
  let recall := ratio0 tp fn in
  CatScores precision recall (f1_score precision recall)
    (if (length rows =? 0)%nat then None else Some (INR (count obs rows) / INR (length rows))).
(** Lines 376-381: sums over the categories of the item. *)
Record item_scores := ItemScores { it_precision : R; it_recall : R; it_f1 : R; it_wprecision : nanr; it_wrecall : nanr; it_wf1 : nanr }.
(** Lines 364-381. *)
Definition item_metrics (rows : list (nat * cell)) (K : nat) : item_scores :=
  let cs := map (category_metrics rows) (seq 0 K) in
  let macro f := rsum (map (fun c => f c / INR K) cs) in
  let weighted f := osum (map (fun c => olift2 Rmult (Some (f c)) (cs_weight c)) cs) in
  ItemScores (macro cs_precision) (macro cs_recall) (macro cs_f1) (weighted cs_precision) (weighted cs_recall) (weighted cs_f1).
(** Lines 352-391. *)
Definition predictions (cats : list nat) (probs : list (list (list R))) (data : wide cell) : result (list item_scores) :=
  bind (predicted probs) (fun pred =>
  if same_shape pred (w_rows data)
  then Ok (mapi (fun i K => item_metrics (observed_rows (column O i pred) (column None i (w_rows data))) K) cats)
  else Err RuntimeError).

(** ** Infit and outfit, 444-478.  [lv] is None for any other string. *)
(** A number or NaN as a float, lines 465-472. *)
Definition nan_fl (x : nanr) : fl := option_map Fin x.
(** Observed scores, 451 and 460 (the comparison with the key is false for NaN). *)
Definition observed_score (mc : option Z) (c : cell) : nanr :=
  match mc with
  | Some k => Some (match c with Some z => if (z =? k)%Z then 1 else 0 | None => 0 end)
  | None => cell_value_r c
  end.
(** Line 463, for one cell; 456-457 for multiple choice. *)
Definition score_variance (p : list R) (e : nanr) : nanr :=
  osum (mapi (fun k x => olift2 Rmult (option_map (fun e => (INR k - e) ^ 2) e) (Some x)) p).
(** Line 457. *)
Definition correct_variance (e : nanr) : nanr := option_map (fun x => x * (1 - x)) e.
(** Line 465. *)
Definition squared (o e : nanr) : nanr := option_map (fun d => d ^ 2) (olift2 Rminus o e).
(** Lines 468-469. *)
Definition weighted_square (m v : nanr) : fl :=
  match m with
  | Some x => if Req_EM_T x 0 then Some (Fin 0) else fdiv (nan_fl m) (nan_fl v)
  | None => fdiv (nan_fl m) (nan_fl v)
  end.
(** [nansum], lines 472 and 475. *)
Definition nansum_r (l : list nanr) : R := rsum (finite l).
(** The entries nanmean keeps, lines 473, 476 and 534. *)
Definition present_fl (l : list fl) : list fl := filter (fun x : fl => match x with Some _ => true | None => false end) l.
(** [nanmean], lines 473, 476 and 534. *)
Definition fnanmean (l : list fl) : fl := fmean (present_fl l).
(** The key must have one entry per item (simplification: torch would broadcast a single entry); an empty list
    makes a float index tensor, which scatter_ refuses. Lines 452-454 and 460. *)
Definition infit_key (items : nat) (mc : option (list Z)) : result (list (option Z)) :=
  match mc with
  | None => Ok (repeat None items)
  | Some key => if (length key =? items)%nat && negb (length key =? 0)%nat then Ok (map Some key) else Err RuntimeError
  end.
(** Lines 465-466. *)
Definition masked_square (key : list (option Z)) (row : list cell) (e : list nanr) : list nanr :=
  zip_with (fun ck e => if missing_cell (fst ck) then None else squared (observed_score (snd ck) (fst ck)) e) (combine row key) e.
(** Lines 457, 463 and 467. *)
Definition masked_variance (key : list (option Z)) (row : list cell) (pe : list (list R * nanr)) : list nanr :=
  zip_with (fun ck (pe : list R * nanr) => if missing_cell (fst ck) then None
              else match snd ck with Some _ => correct_variance (snd pe) | None => score_variance (fst pe) (snd pe) end)
    (combine row key) pe.
(** Lines 444-478. *)
Definition infit_outfit (cats : nat) (mc : option (list Z)) (probs : list (list (list R))) (data : wide cell) (lv : option level)
  : result (list fl * list fl) :=
  match lv with
  | None | Some LAll => Err ValueError
  | Some lv =>
      bind (expected_item_scores (w_cols data) cats mc (some3 probs)) (fun e =>
      bind (infit_key (w_cols data) mc) (fun key =>
      if match mc with Some _ => (cats <? 2)%nat | None => false end then Err IndexError
      else if same_shape probs (w_rows data) && same_shape e (w_rows data) then
        let mse := zip_with (masked_square key) (w_rows data) e in
        let variance := zip_with (masked_variance key) (w_rows data) (zip_with (@combine (list R) nanr) probs e) in
        let wmse := zip_with (zip_with weighted_square) mse variance in
        let lines {A} (d : A) (m : list (list A)) :=
          match lv with LItem => over_respondents d (fun l => l) (w_cols data) m | _ => m end in
        Ok (zip_with (fun m v => fdiv (Some (Fin (nansum_r m))) (Some (Fin (nansum_r v)))) (lines None mse) (lines None variance),
            map fnanmean (lines None wmse))
      else Err RuntimeError))
  end.

(** ** Log-likelihood, 513-538.  The reduction is the caller's string: line 533 tests [reduction in "mean"], which
    asks for a substring. Line 533. *)
Definition substring_of (s t : string) : bool := match index 0 s t with Some _ => true | None => false end.
(** Line 531. *)
Definition floor30 (x : fl) : fl := match x with Some NInf => Some (Fin (-30)) | _ => x end.
(** Results of lines 533-538. *)
Inductive fstat := FFull (m : list (list fl)) | FVec (l : list fl) | FOne (x : fl).
(** Lines 515-521 and 533-536. *)
Definition f_by_level (f : list fl -> fl) (lv : level) (cols : nat) (m : list (list fl)) : fstat :=
  match lv with
  | LItem => FVec (over_respondents None f cols m)
  | LRespondent => FVec (map f m)
  | LAll => FOne (f (concat m))
  end.
(** Lines 523-528 and 579-584. *)
Definition cell_log_likelihoods (m : emodel) (thetas : list (list R)) (data : wide cell) (mask : wide bool) : result (list fl) :=
  bind (em_forward m thetas) (fun out =>
  bind (em_ll m RNone data out (Some mask)) cells_of).
(** Lines 513-538. *)
Definition log_likelihood (m : emodel) (thetas : list (list R)) (data : wide cell) (reduction : string) (lv : level) : result fstat :=
  bind (cell_log_likelihoods m thetas data (mask_of data)) (fun ll =>
  bind (view_rows (length thetas) (map floor30 ll)) (fun rows =>
  let cols := (length ll / length thetas)%nat in
  if substring_of reduction "mean" then Ok (f_by_level fnanmean lv cols rows)
  else if String.eqb reduction "sum" then Ok (f_by_level fnansum lv cols rows)
  else Ok (FFull rows))).

(** ** Groups of respondents *)
(** [theta[:, latent_variable - 1]]; [lv] columns.  Zero asks for the last column. Lines 576, 643, 654 and 659. *)
Definition lv_column (lv latent_variable : nat) (thetas : list (list R)) : result (list R) :=
  match norm_index lv (Z.of_nat latent_variable - 1) with
  | Some j => Ok (column 0 j thetas)
  | None => Err IndexError
  end.
(** [x[indices]]. Lines 577-578, 646-647, 660 and 666. *)
Definition take_rows {A} (idx : list nat) (l : list A) : result (list A) :=
  mapM (fun i => match nth_error l i with Some x => Ok x | None => Err IndexError end) idx.
(** Lines 587-594: consecutive slices, the first [n mod groups] one larger. *)
Definition group_slices {A} (groups : nat) (l : list A) : list (list A) :=
  snd (fold_left (fun st g =>
         let '(start, out) := st in
         let size := (length l / groups + (if g <? length l mod groups then 1 else 0))%nat in
         ((start + size)%nat, out ++ [firstn size (skipn start l)])) (seq 0 groups) (O, [])).
(** group_fit_log_likelihood, 574-596.  The mask is that of the unsorted data. *)
Definition group_fit_log_likelihood (m : emodel) (thetas : list (list R)) (data : wide cell) (groups latent_variable : nat)
  : result (list fl) :=
  let mask := mask_of data in
  bind (lv_column (em_lv m) latent_variable thetas) (fun col =>
  let idx := argsort_r col in
  bind (take_rows idx thetas) (fun thetas' =>
  bind (take_rows idx (w_rows data)) (fun rows' =>
  bind (cell_log_likelihoods m thetas' (Wide (w_cols data) rows') mask) (fun ll =>
  bind (view_rows (length thetas) ll) (fun rows =>
  Ok (map fmean (group_slices groups (map fsum rows)))))))).

(** torch.bincount(x, minlength): RuntimeError for a negative entry. Largest entry, for line 1057. *)
Definition zmax (l : list Z) : Z := fold_right Z.max (-1)%Z l.
(** Lines 976 and 1057. *)
Definition bincount (minlength : nat) (l : list Z) : result (list nat) :=
  if forallb (fun z => (0 <=? z)%Z) l
  then Ok (map (fun k => count (fun z => (z =? Z.of_nat k)%Z) l) (seq 0 (Nat.max minlength (Z.to_nat (zmax l + 1)))))
  else Err RuntimeError.
(** Lines 1055-1058 for one group and item; more than [M] counts do not fit the row. *)
Definition present (l : list cell) : list Z :=
  flat_map (fun c => if missing_cell c then [] else match c with Some z => [z] | None => [] end) l.
(** Lines 1055-1058. *)
Definition proportions (M : nat) (col : list cell) : result (list nanr) :=
  bind (bincount M (present col)) (fun counts =>
  if (length counts =? M)%nat
  then Ok (map (fun c => if (list_sum counts =? 0)%nat then None else Some (INR c / INR (list_sum counts))) counts)
  else Err RuntimeError).
(** _grouped_data_probabilities, 1037-1060, and _observed_item_score_proportions, 958-979 (a single group). *)
Definition grouped_data_probabilities (cats : list nat) (groups : list (list (list cell))) : result (list (list (list nanr))) :=
  mapM (fun g => mapM (fun i => proportions (list_max cats) (column None i g)) (seq 0 (length cats))) groups.
(** _grouped_theta_probabilities, 1016-1035; [iprob]: the probabilities of one respondent.  The mean of no rows is
    NaN. Lines 654 and 1034. *)
Definition mean_opt (l : list R) : nanr := match l with [] => None | _ => Some (rmean l) end.
(** Lines 1016-1035. *)
Definition grouped_theta_probabilities (iprob : list R -> list (list R)) (cats : list nat) (groups : list (list (list R))) : list (list (list nanr)) :=
  map (fun g => map (fun i => map (fun k => mean_opt (map (fun t => nth k (nth i (iprob t) []) 0) g)) (seq 0 (list_max cats)))
                  (seq 0 (length cats))) groups.
(** torch.median of a group (an empty one raises). Line 663. *)
Definition group_median (l : list R) : result R := match l with [] => Err IndexError | _ => Ok (median l) end.
(** torch.chunk: at least one chunk. Lines 256, 649-650, 661 and 667. *)
Definition chunked {A} (groups : nat) (l : list A) : result (list (list A)) :=
  match groups with O => Err RuntimeError | _ => Ok (chunk groups l) end.
(** latent_group_probabilities, 637-670, from the resolved data and scores.  [scale]: the transformation when
    rescaling is asked for and the model has one. *)
Definition latent_group_probabilities (iprob : list R -> list (list R)) (lv : nat) (cats : list nat)
    (scale : option (list (list R) -> list (list R))) (thetas : list (list R)) (rows : list (list cell)) (groups latent_variable : nat)
  : result (list (list (list nanr)) * list (list (list nanr)) * list nanr) :=
  let scores := match scale with Some f => f thetas | None => thetas end in
  bind (lv_column lv latent_variable scores) (fun col =>
  let idx := argsort_r col in
  bind (take_rows idx thetas) (fun thetas' =>
  bind (take_rows idx col) (fun col' =>
  bind (chunked groups thetas') (fun gt =>
  bind (chunked groups col') (fun gc =>
  bind (match scale with
        | Some _ => Ok (map mean_opt gc)
        | None => bind (mapM group_median gc) (fun l => Ok (map Some l))
        end) (fun mid =>
  bind (take_rows idx rows) (fun rows' =>
  bind (chunked groups rows') (fun gd =>
  bind (grouped_data_probabilities cats gd) (fun dp =>
  Ok (dp, grouped_theta_probabilities iprob cats gt, mid)))))))))).

(** group_fit_residuals, 242-266.  [data]: the argument of the call ([None] when the training data are to be used);
    [train]: the training data. [sqrt], line 259. *)
Definition fsqrt (a : fl) : fl :=
  match a with
  | Some (Fin x) => if Rlt_dec x 0 then None else Some (Fin (sqrt x))
  | Some PInf => Some PInf
  | _ => None
  end.
(** Line 259. *)
Definition std_residual (n : nat) (d p : nanr) : fl :=
  fdiv (nan_fl (olift2 Rminus d p)) (fsqrt (fdiv (nan_fl (option_map (fun x => x * (1 - x)) p)) (Some (Fin (INR n))))).
(** Line 253. *)
Definition zip3 {A B C} (f : A -> B -> C) (a : list (list (list A))) (b : list (list (list B))) : list (list (list C)) :=
  zip_with (zip_with (zip_with f)) a b.
(** Lines 262-264. *)
Definition blank_categories (cats : list nat) (m : list (list (list nanr))) : list (list (list nanr)) :=
  map (fun g => mapi (fun i row => match nth_error cats i with
                                   | Some K => mapi (fun k x => if (K <=? k)%nat then None else x) row
                                   | None => row end) g) m.
(** Lines 242-266. *)
Definition group_fit_residuals (iprob : list R -> list (list R)) (lv : nat) (cats : list nat)
    (scale : option (list (list R) -> list (list R))) (thetas : list (list R)) (train : list (list cell)) (data : option (list (list cell)))
    (groups latent_variable : nat) (standardize : bool) : result (list (list (list fl)) * list nanr) :=
  bind (latent_group_probabilities iprob lv cats scale thetas (match data with Some d => d | None => train end) groups latent_variable) (fun r =>
  let '(dp, mp, mid) := r in
  if standardize then
    match data with
    | None => Err TypeError (* torch.chunk(None, groups) *)
    | Some d =>
        bind (chunked groups d) (fun gd =>
        if (length gd =? length dp)%nat
        then Ok (zip_with (fun n (x : list (list nanr) * list (list nanr)) => zip_with (zip_with (std_residual n)) (fst x) (snd x))
                   (map (@length (list cell)) gd) (combine dp mp), mid)
        else Err RuntimeError)
    end
  else Ok (map (map (map nan_fl)) (blank_categories cats (zip3 (olift2 Rminus) dp mp)), mid)).
