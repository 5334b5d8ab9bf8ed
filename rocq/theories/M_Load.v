(** Model of irtorch/load_dataset.py: answer keys, the Swedish SAT data and the preprocessing and caching of the
    big five data.  Files and downloads are arguments. *)
From Coq Require Import String Ascii.
From Verif Require Import Base RBase M_Data.
Import List.
Local Open Scope R_scope.

(** ** Answer keys *)
(** load_dataset.py:62-63 and 87-88: every digit of the text, less one.  [char.isdigit()] is modelled on ASCII:
    other Unicode digits are not considered. *)
Definition digit (a : ascii) : option Z :=
  let n := Z.of_nat (nat_of_ascii a) in if (48 <=? n)%Z && (n <=? 57)%Z then Some (n - 48)%Z else None.
(** The characters kept at lines 63 and 88. *)
Fixpoint digits (s : string) : list Z :=
  match s with
  | EmptyString => []
  | String a s' => match digit a with Some d => d :: digits s' | None => digits s' end
  end.
(** load_dataset.py:62-63 and 87-88. *)
Definition parse_key (s : string) : list Z := map (fun d => (d - 1)%Z) (digits s).

(** ** Swedish SAT *)
(** swedish_sat, load_dataset.py:94-109: [torch.cat(..., dim=1)] and the two keys. The answers and the text of the key, 54-67. *)
Definition sat_part : Type := (list (list cell) * string)%type.
(** load_dataset.py:94-109. *)
Definition swedish_sat (quant verb : sat_part) : result (list (list cell) * list Z) :=
  if negb (length (fst quant) =? length (fst verb))%nat then Err RuntimeError
  else Ok (zip_with (fun a b => a ++ b) (fst quant) (fst verb), parse_key (snd quant) ++ parse_key (snd verb)).
(** swedish_sat_binary, 121-130: [(data == correct_scores).float()]; a NaN equals nothing.  Broadcasting: equal
    widths, or one of them is one. *)
Definition same_answer (c : cell) (k : Z) : R := match c with Some z => if (z =? k)%Z then 1 else 0 | None => 0 end.
(** Line 128, one row. *)
Definition score_row (key : list Z) (row : list cell) : result (list R) :=
  if (length row =? length key)%nat then Ok (zip_with same_answer row key)
  else match row, key with
       | _, [k] => Ok (map (fun c => same_answer c k) row)
       | [c], _ => Ok (map (same_answer c) key)
       | _, _ => Err RuntimeError
       end.
(** load_dataset.py:121-130. *)
Definition swedish_sat_binary (quant verb : sat_part) : result (list (list R)) :=
  bind (swedish_sat quant verb) (fun dk => mapM (score_row (snd dk)) (fst dk)).

(** ** Big five *)
(** One line of the file: the answers (first 50 columns), the response times in milliseconds (next 50) and the
    number of submissions from the same address (column IPC); [None] is NaN. load_dataset.py:254-259. *)
Record person := { answers : list (option R); times : list (option R); ipc : option R }.
(** load_dataset.py:254-257. *)
Definition below (x : R) (t : option R) : bool := match t with Some y => if Rlt_dec y x then true else false | None => false end.
(** load_dataset.py:256. *)
Definition above (x : R) (t : option R) : bool := match t with Some y => if Rlt_dec x y then true else false | None => false end.
(** load_dataset.py:254-257. *)
Definition keep_times (p : person) : bool :=
  let seconds := map (option_map (fun t => t / 1000)) (times p) in
  (ctrue (map (below 0) seconds) =? 0)%nat && (ctrue (map (above 300) seconds) =? 0)%nat.
(** 258. *)
Definition keep_ipc (p : person) : bool := match ipc p with Some x => if Req_EM_T x 1 then true else false | None => false end.
(** 260: dropna; 261: the row sum (of rows without NaN). *)
Definition complete (row : list (option R)) : bool := forallb (fun c => match c with Some _ => true | None => false end) row.
(** Line 261. *)
Definition row_sum (row : list (option R)) : R := rsum (map (fun c => match c with Some x => x | None => 0 end) row).
(** 262. *)
Definition zero_to_nan (c : option R) : option R := match c with Some x => if Req_EM_T x 0 then None else Some x | None => None end.
(** 264-268: the reversed columns, by name. *)
Definition reverse_items : list string :=
  ["EXT2"; "EXT4"; "EXT6"; "EXT8"; "EXT10"; "AGR1"; "AGR3"; "AGR5"; "AGR7";
   "CSN2"; "CSN4"; "CSN6"; "CSN8"; "EST2"; "EST4"; "OPN2"; "OPN4"; "OPN6"]%string.
(** Line 268. *)
Definition reverse_value (c : option R) : option R :=
  match c with
  | Some x => let y := (1 - x / 5) * 5 + 1 in Some (if Req_EM_T y 6 then 0 else y)
  | None => None
  end.
(** Whether a column is among the named ones, line 268. *)
Definition named_in (l : list string) (n : string) : bool := existsb (String.eqb n) l.
(** Lines 264-268. *)
Definition reverse_row (names : list string) (row : list (option R)) : list (option R) :=
  zip_with (fun n c => if named_in reverse_items n then reverse_value c else c) names row.
(** 253-270; [names] are the names of the first 50 columns.  An unknown column name is a KeyError. *)
Definition big_five_rows (names : list string) (file : list person) : result (list (list (option R))) :=
  let data := filter keep_times file in
  let data := filter keep_ipc data in
  let data := map answers data in
  let data := filter complete data in
  let data := filter (fun row => if Rlt_dec 0 (row_sum row) then true else false) data in
  let data := map (map zero_to_nan) data in
  if forallb (named_in names) reverse_items
  then Ok (map (fun row => map (option_map (fun x => x - 1)) (reverse_row names row)) data)
  else Err KeyError.

(** ** The cache *)
(** What is found at the place of the cached file: nothing, a complete pickle, or the beginning of one left by a
    call that was interrupted while writing. load_dataset.py:240-242 and 272-273. *)
Inductive cached (A : Type) := Absent | Complete (a : A) | Truncated.
Arguments Absent {A}. Arguments Complete {A} _. Arguments Truncated {A}.
(** 240-281 without the list of items; [download] the file obtained from the network, [interrupted] whether the
    process dies during 272-273.  The answer and what is left on the disk. *)
Definition big_five_call (names : list string) (disk : cached (list (list (option R)) * list person)) (download : result (list person)) (interrupted : bool)
  : result (list (list (option R)) * list person) * cached (list (list (option R)) * list person) :=
  match disk with
  | Complete x => (Ok x, disk)
  | Truncated => (Err OtherError, disk)
  | Absent =>
      match download with
      | Err e => (Err e, Absent)
      | Ok file =>
          match big_five_rows names file with
          | Err e => (Err e, Absent)
          | Ok rows => if interrupted then (Err OtherError, Truncated) else (Ok (rows, file), Complete (rows, file))
          end
      end
  end.
