(** Names and colours of the categories in the figures of item_probabilities, irtorch/plotter.py:1017-1215 and 1310-1333.
    Definitions only.  Colours are strings as handed to plotly. *)
From Coq Require Import String Ascii.
From Verif Require Import Base RBase M_Data M_Enc.
Import List.
Local Open Scope R_scope.
Local Open Scope list_scope.

(** One digit of [f"{...:02x}"], plotter.py:1332. *)
Definition hex_digit (v : nat) : ascii := match String.get v "0123456789abcdef" with Some c => c | None => "?"%char end.
(** [f"{v:02x}"] for v below 256, plotter.py:1332. *)
Definition hex (v : nat) : string := String (hex_digit (v / 16)) (String (hex_digit (v mod 16)) EmptyString).
(** _generate_grayscale_colors(n) with the default start colour b0 b0 b0 (176), plotter.py:1310-1333.  The truncated
    real number 176 - 176 i / (n - 1) is written in integers; the rounding of the floats is below 1 / (n - 1), so it cannot
    change the integer part.  Of one colour only (n = 1) it divides zero by zero, see [item_curves]. *)
Definition gray_colours (n : nat) : list string :=
  map (fun i => let l := hex (176 * (n - 1 - i) / (n - 1)) in String "#" (append l (append l l))) (seq 0 n).
(** [colors * n], a list repeated, plotter.py:1087 and 1185. *)
Definition repeated (colors : list string) (n : nat) : list string := concat (repeat colors n).

(** A line or a set of marks; plotter.py:1094-1117. *)
Inductive look := Lines | OpenMarks | FilledMarks.
(** A trace of the figure: name, colour, look and points; plotter.py:1094-1117. *)
Record trace (X : Type) := Trace { t_name : string; t_colour : string; t_look : look; t_points : list X }.
Arguments Trace {X}. Arguments t_name {X}. Arguments t_colour {X}. Arguments t_look {X}. Arguments t_points {X}.

(** Name and colour of the line of latent variable [i] in scale_transformations, plotter.py:1400-1409. *)
Definition scale_line (palette : list string) (color : option string) (i : nat) : string * string :=
  (numbered "Latent variable " (i + 1), match color with Some c => c | None => nth (i mod length palette) palette EmptyString end).

Section Figures.
  Context {V : Type} (nan : V).

  (** _item_probabilities_plot, plotter.py:1078-1117.  [points] are the scores left after trimming ([trim] of the file M_Plot)
      with their rows of probabilities, [K] the number of categories, [palette] the present value of
      px.colors.qualitative.Plotly, [groups] the means, observed and fitted shares of group fit.
      With one category in grayscale the colour is made of not-a-number and refused by plotly (ValueError). *)
  Definition item_curves (palette : list string) (mc grayscale : bool) (K : nat) (points : list (R * list V))
    (groups : option (list (R * (list V * list V)))) : result (list (trace (R * V))) :=
    if grayscale && (K =? 1)%nat then Err ValueError
    else
      let colors := if grayscale then gray_colours K else palette in
      let colors := if (length colors <? K)%nat then repeated colors (K / length colors + 1) else colors in
      Ok (flat_map (fun k =>
            let color := nth (k mod length colors) colors EmptyString in
            Trace (if mc then numbered "Option " (k + 1) else numbered "" k) color Lines (map (fun p => (fst p, nth k (snd p) nan)) points) ::
            match groups with
            | None => []
            | Some g => [Trace "Data"%string color OpenMarks (map (fun p => (fst p, nth k (fst (snd p)) nan)) g);
                         Trace "Model"%string color FilledMarks (map (fun p => (fst p, nth k (snd (snd p)) nan)) g)]
            end) (seq 0 K)).
  (** _item_probabilities_3dplot, plotter.py:1171-1203: the surfaces, and the value of px.colors.qualitative.Plotly afterwards,
      which [colors +=] changes in place (1185) unless the colours are gray.  [points] are both scores and the
      probabilities, row by row; they must form a square (1175-1176).  The legend entries (1197-1201) have the names and colours
      of the surfaces and are left out. *)
  Definition item_surfaces (palette : list string) (grayscale : bool) (K : nat) (points : list (R * R * list V))
    : result (list (trace (R * R * V))) * list string :=
    if negb (Nat.sqrt (length points) * Nat.sqrt (length points) =? length points)%nat then (Err ValueError, palette)
    else if grayscale && (K =? 1)%nat then (Err ValueError, palette)
    else
      let colors := if grayscale then gray_colours K else palette in
      let colors := if (length colors <? K)%nat then colors ++ repeated colors (K / length colors + 1) else colors in
      (Ok (map (fun k => Trace (numbered "Response " k) (nth (k mod length colors) colors EmptyString) Lines
                           (map (fun p => (fst p, nth k (snd p) nan)) points)) (seq 0 K)),
       if grayscale then palette else colors).
  (** A call of item_probabilities that reaches the drawing, plotter.py:621-656. *)
  Inductive request :=
    | Curves (mc grayscale : bool) (K : nat) (points : list (R * list V)) (groups : option (list (R * (list V * list V))))
    | Surfaces (grayscale : bool) (K : nat) (points : list (R * R * list V)).
  (** The palette after a call. plotter.py:1083 and 1185. *)
  Definition palette_after (palette : list string) (r : request) : list string :=
    match r with Curves _ _ _ _ _ => palette | Surfaces gray K points => snd (item_surfaces palette gray K points) end.
  (** The palette after the calls of a session, in order. plotter.py:1083 and 1185. *)
  Definition session (palette : list string) (rs : list request) : list string := fold_left palette_after rs palette.
End Figures.
