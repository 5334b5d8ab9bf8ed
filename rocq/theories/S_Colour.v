(** Vocabulary for the colours of figures. *)
From Coq Require Import String HexadecimalString.
From Verif Require Import Base RBase M_Data M_Enc M_Colour.
Import List.

(** The hexadecimal notation of a number below 256 with two digits. *)
Definition two_digits (l : nat) : string :=
  let s := NilEmpty.string_of_uint (Nat.to_hex_uint l) in if (l =? 0)%nat then "00"%string else if (l <? 16)%nat then append "0" s else s.
(** The gray whose red, green and blue parts are all [l]. *)
Definition gray_of (l : nat) : string := append "#" (append (two_digits l) (append (two_digits l) (two_digits l))).
(** The curve of category [k] shows its probabilities, its marks the observed and the fitted shares of the groups. *)
Definition curve_points {V} (nan : V) (points : list (R * list V)) (k : nat) : list (R * V) := map (fun p => (fst p, nth k (snd p) nan)) points.
(** Colours of the categories of a figure drawn with the palette [P]: [P] from the start again when it is used up. *)
Definition cyclic (P : list string) (k : nat) : string := nth (k mod length P) P EmptyString.
