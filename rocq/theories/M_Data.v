(** Model of the data-preparation code: one-hot encoding, missing masks, imputation, the dataset
    wrapper, inferred category counts and sum scores.  Definitions only. *)
From Coq Require Import QArith.
From Verif Require Import Base.

(** A response: [None] is NaN; the other missing code, -1, is [Some (-1)].
    Simplification: responses are integers (the code stores them as floats). *)
Notation cell := (option Z).

(** A data tensor: number of dimensions, number of columns and the rows.
    The argument [data] of _internal_utils.py:323-374, 376-390, 392-448 and irt_dataset.py:25. *)
Record mat := Mat { m_dim : nat; m_cols : nat; m_rows : list (list cell) }.

(** [data == -1] and [data.isnan()] on one cell. _internal_utils.py:390. *)
Definition is_m1 (c : cell) : bool := match c with Some z => (z =? -1)%Z | None => false end.
(** data.isnan() on one cell, _internal_utils.py:390. *)
Definition is_nan (c : cell) : bool := match c with None => true | _ => false end.

(** get_missing_mask, _internal_utils.py:376-390 (and irt_dataset.py:36). *)
Definition missing_cell (c : cell) : bool := is_m1 c || is_nan c.
(** _internal_utils.py:376-390. *)
Definition get_missing_mask (d : mat) : list (list bool) := map (map missing_cell) (m_rows d).

(** [data[data.isnan()] = -1], _internal_utils.py:355-356. *)
Definition nan_to_m1 (c : cell) : cell := if is_nan c then Some (-1)%Z else c.
(** _internal_utils.py:355-356 on the whole tensor. *)
Definition fill_nan (d : mat) : mat := Mat (m_dim d) (m_cols d) (map (map nan_to_m1) (m_rows d)).

(** One row of one item's block, _internal_utils.py:363-369: zeros, with a one at the response
    unless the response is -1; torch index semantics (negative indices wrap, out of range raises). *)
Definition one_hot_cell (K : nat) (c : cell) : result (list Z) :=
  match c with
  | None => Err RuntimeError (* not reached: NaN was replaced before *)
  | Some z =>
      if (z =? -1)%Z then Ok (repeat 0%Z K)
      else match norm_index K z with
           | Some j => Ok (upd j 1%Z (repeat 0%Z K))
           | None => Err IndexError
           end
  end.

(** One iteration of the loop _internal_utils.py:362-371: the block of item [i] for all rows. *)
Definition one_hot_col (rows : list (list cell)) (i K : nat) : result (list (list Z)) :=
  mapM (fun row => one_hot_cell K (nth i row None)) rows.

(** one_hot_encode_test_data, _internal_utils.py:323-374.  Returns the outcome and the caller's
    tensor after the call (lines 355-356 assign into it).  Line 374: [torch.cat] of an empty list
    raises RuntimeError. *)
Definition one_hot_encode (d : mat) (cats : list nat) : result (list (list Z)) * mat :=
  if negb (m_dim d =? 2) then (Err ValueError, d)
  else if negb (m_cols d =? length cats) then (Err ValueError, d)
  else
    let d' := fill_nan d in
    (bind (mapiM (one_hot_col (m_rows d')) cats) (fun bs =>
       match bs with
       | [] => Err RuntimeError
       | _ => Ok (map (fun r => flat_map (fun b => nth r b []) bs) (seq 0 (length (m_rows d'))))
       end),
     d').

(** *** Imputation *)

Notation qcell := (option Q).

(** _internal_utils.py:418-419 (utils.py:327-328) on one cell. *)
Definition m1_to_nan (c : cell) : cell := if is_m1 c then None else c.

(** data[:, i], as at _internal_utils.py:443. *)
Definition col_of (i : nat) (rows : list (list cell)) : list cell := map (fun r => nth i r None) rows.

(** The cells that are not NaN; used by nanmean, _internal_utils.py:426, and max, 436. *)
Definition observed (l : list cell) : list Z :=
  flat_map (fun c => match c with Some z => [z] | None => [] end) l.

(** [nanmean(dim=0)] of one column; [None] (NaN) when nothing is observed. _internal_utils.py:426, utils.py:333. *)
Definition nanmean (l : list cell) : option Q :=
  match observed l with
  | [] => None
  | o => Some (inject_Z (fold_right Z.add 0%Z o) / inject_Z (Z.of_nat (length o)))%Q
  end.

(** An integer response as a number (imputed cells may be fractions), _internal_utils.py:428. *)
Definition to_q (c : cell) : qcell := option_map inject_Z c.

(** Categories inferred from data, _internal_utils.py:436, utils.py:346 and the model constructors
    (generalized_partial_credit.py:61, graded_response.py:65, nominal_response.py:61,
    nested_logit.py:78, monotone_nn.py:91, surprisal_spline.py:70):
    max over non-NaN cells + 1, [None] standing for the int conversion of -inf when a column has
    no observed cell. *)
Definition max_list (l : list Z) : option Z :=
  match l with [] => None | z :: l' => Some (fold_left Z.max l' z) end.
(** _internal_utils.py:436, utils.py:346. *)
Definition infer_categories (cols : nat) (rows : list (list cell)) : result (list (option Z)) :=
  match rows with
  | [] => Err IndexError
  | _ => Ok (map (fun i => option_map (fun m => (m + 1)%Z) (max_list (observed (col_of i rows))))
                 (seq 0 cols))
  end.

(** The argument [method], _internal_utils.py:395, utils.py:299. *)
Inductive imethod := IZero | IMean | IRandomIncorrect | IPriorExpected | IUnknown.

(** [incorrect_responses] of a column, _internal_utils.py:440-441 (utils.py:350-351): arange(0,K)
    without the key.  A negative K makes arange raise. *)
Definition incorrect_responses (K : option Z) (key : Z) : result (list Z) :=
  match K with
  | None => Err RuntimeError
  | Some k => if (k <? 0)%Z then Err RuntimeError
              else Ok (filter (fun c => negb (c =? key)%Z) (map Z.of_nat (seq 0 (Z.to_nat k))))
  end.

(** One iteration of the column loop, _internal_utils.py:438-445 (utils.py:348-355): the list that
    missing cells of column [col] are drawn from.  torch.randint on an empty range raises.  With a
    single row the [.squeeze()] of line 443 yields a 0-d boolean index, so that
    [imputed_data[mask, col]] indexes the rows with [col]: an IndexError for every column other
    than column 0, and for column 0 too unless its cell is missing. *)
Definition random_col (rows : list (list cell)) (cats : list (option Z)) (mc : list Z) (col : nat)
  : result (list Z) :=
  match nth_error cats col with
  | None => Err IndexError
  | Some K =>
      match nth_error mc col with
      | None => Err IndexError
      | Some key =>
          bind (incorrect_responses K key) (fun inc =>
            match inc with
            | [] => Err RuntimeError
            | _ =>
                match rows with
                | [r] => if (col =? 0) && is_nan (nth 0 r None) then Ok inc else Err IndexError
                | _ => Ok inc
                end
            end)
      end
  end.

(** The whole "random incorrect" branch.  [draw col row n] is the index drawn by torch.randint(0,n). _internal_utils.py:438-445, utils.py:348-355. *)
Definition random_fill (draw : nat -> nat -> nat -> nat) (cols : nat) (rows : list (list cell))
  (cats : list (option Z)) (mc : list Z) : result (list (list qcell)) :=
  bind (mapM (random_col rows cats mc) (seq 0 cols)) (fun incs =>
    Ok (mapi (fun r row =>
          mapi (fun c x =>
            match x with
            | Some z => Some (inject_Z z)
            | None => let inc := nth c incs [] in
                      option_map inject_Z (nth_error inc (draw c r (length inc)))
            end) row) rows)).

(** _internal_utils.py:422, utils.py:331. *)
Definition zero_fill (rows : list (list cell)) : list (list qcell) :=
  map (map (fun c => match c with None => Some 0%Q | Some z => Some (inject_Z z) end)) rows.

(** _internal_utils.py:426-428, utils.py:333-335. *)
Definition mean_fill (rows : list (list cell)) : list (list qcell) :=
  map (mapi (fun c x => match x with Some z => Some (inject_Z z) | None => nanmean (col_of c rows) end)) rows.

(** impute_missing_internal, _internal_utils.py:392-448; works on a clone, so the caller's tensor
    (second component) is returned as it was. *)
Definition impute_internal (draw : nat -> nat -> nat -> nat) (d : mat) (m : imethod)
  (mc : option (list Z)) (cats : option (list Z)) : result (list (list qcell)) * mat :=
  let rows := map (map m1_to_nan) (m_rows d) in
  (match m with
   | IZero => Ok (zero_fill rows)
   | IMean => Ok (mean_fill rows)
   | IRandomIncorrect =>
       match mc with
       | None => Err ValueError
       | Some key =>
           bind (match cats with
                 | Some c => Ok (map Some c)
                 | None => infer_categories (m_cols d) rows
                 end) (fun cs => random_fill draw (m_cols d) rows cs key)
       end
   | IPriorExpected | IUnknown => Err ValueError
   end, d).

(** What impute_missing needs of a model: answer key, categories and, for "prior expected", the
    rounded expected item scores at theta = 0. utils.py:337-341 and 361-364. *)
Record model_info := ModelInfo { mi_mc : option (list Z); mi_cats : list Z; mi_prior : list Z }.

(** impute_missing, utils.py:296-374.  Lines 337-341: a model *with* a key raises ValueError; a model
    without one sets mc_correct to None, and [mc_correct[col]] at line 351 raises TypeError (after
    [item_categories[col]] at 350 may raise IndexError and arange may raise). *)
Definition impute_missing (draw : nat -> nat -> nat -> nat) (d : mat) (m : imethod)
  (model : option model_info) (mc : option (list Z)) (cats : option (list Z))
  : result (list (list qcell)) * mat :=
  let rows := map (map m1_to_nan) (m_rows d) in
  (match m with
   | IZero => Ok (zero_fill rows)
   | IMean => Ok (mean_fill rows)
   | IRandomIncorrect =>
       match model with
       | Some mi =>
           match mi_mc mi with
           | Some _ => Err ValueError
           | None =>
               match m_cols d with
               | O => Ok (map (map to_q) rows)
               | S _ => match mi_cats mi with
                        | [] => Err IndexError
                        | k :: _ => if (k <? 0)%Z then Err RuntimeError else Err TypeError
                        end
               end
           end
       | None =>
           match mc with
           | None => Err ValueError
           | Some key =>
               bind (match cats with
                     | Some c => Ok (map Some c)
                     | None => infer_categories (m_cols d) rows
                     end) (fun cs => random_fill draw (m_cols d) rows cs key)
           end
       end
   | IPriorExpected =>
       match model with
       | None => Err ValueError
       | Some mi =>
           match mi_mc mi with
           | Some _ => Err ValueError
           | None => Ok (map (mapi (fun c x => match x with
                                               | Some z => Some (inject_Z z)
                                               | None => option_map inject_Z (nth_error (mi_prior mi) c)
                                               end)) rows)
           end
       end
   | IUnknown => Err ValueError
   end, d).

(** PytorchIRTDataset.__init__, irt_dataset.py:25-46, for one-hot encoding without imputation or
    no encoding (imputation produces non-integer data and is covered by [impute_internal]).
    [ds_data] is the clone taken at line 33, [ds_mask] line 36. *)
Record dataset (I : Type) := Dataset { ds_data : mat; ds_mask : list (list bool); ds_input : I }.
Arguments Dataset {I} _ _ _.
Arguments ds_data {I} _.
Arguments ds_mask {I} _.
Arguments ds_input {I} _.

(** irt_dataset.py:33-36 and 41-44. *)
Definition dataset_one_hot (d : mat) (cats : option (list nat))
  : result (dataset (list (list Z))) * mat :=
  let clone := d in
  let mask := get_missing_mask d in
  match cats with
  | None => (Err ValueError, d)
  | Some cs =>
      let '(r, d') := one_hot_encode d cs in
      (rmap (fun enc => Dataset clone mask enc) r, d')
  end.

(** irt_dataset.py:33-39 and 46. *)
Definition dataset_impute (draw : nat -> nat -> nat -> nat) (d : mat) (m : imethod)
  (mc : option (list Z)) (cats : option (list Z)) : result (dataset (list (list qcell))) * mat :=
  let clone := d in
  let mask := get_missing_mask d in
  let '(r, d') := impute_internal draw d m mc cats in
  (rmap (fun inp => Dataset clone mask inp) r, d').

(** get_item_categories, utils.py:278-294: the maximum of each column over the rows without any NaN,
    plus one; [max] of an empty tensor raises RuntimeError. *)
Definition get_item_categories (d : mat) : result (list Z) :=
  let complete := filter (fun r => negb (existsb is_nan r)) (m_rows d) in
  mapM (fun i => match max_list (observed (col_of i complete)) with
                 | Some m => Ok (m + 1)%Z
                 | None => Err RuntimeError
                 end) (seq 0 (m_cols d)).

(** sum_score, _internal_utils.py:450-469: without a key the plain sum of the row (NaN if any cell is
    NaN, -1 counted as -1); with a key the number of matching cells.  Rows as long as the key. *)
Fixpoint sum_cells (r : list cell) : cell :=
  match r with
  | [] => Some 0%Z
  | c :: r' => match c, sum_cells r' with
               | Some a, Some b => Some (a + b)%Z
               | _, _ => None
               end
  end.
(** data == key on one cell, _internal_utils.py:469. *)
Definition cell_eqb (c : cell) (z : Z) : bool := match c with Some x => (x =? z)%Z | None => false end.
(** One respondent, _internal_utils.py:466-469. *)
Definition sum_score_row (mc : option (list Z)) (r : list cell) : cell :=
  match mc with
  | None => sum_cells r
  | Some key => Some (Z.of_nat (length (filter (fun b => b) (zip_with cell_eqb r key))))
  end.
(** _internal_utils.py:450-469. *)
Definition sum_score (mc : option (list Z)) (rows : list (list cell)) : list cell :=
  map (sum_score_row mc) rows.
