(** Property C136: names and colours of the categories in figures. *)
From Coq Require Import String.
From Verif Require Import Base BaseFacts RBase M_Data M_Enc M_Colour S_Colour P_Colour.
Import List.
Local Open Scope list_scope.
Local Open Scope nat_scope.

(** Whatever figures were drawn before, starting from the palette [P]: the lines of a figure belong to the categories in
    order, show their probabilities, are named by their number, and have the colours of [P] in turn; with group fit every line is
    followed by the observed shares (open marks) and the fitted ones (filled marks) of its category, in its colour. *)
Theorem C136_curves : forall V (nan : V) P past mc K points groups, P <> [] ->
  exists traces, item_curves nan (session nan P past) mc false K points groups = Ok traces /\
    match groups with
    | None => length traces = K /\
        forall k, k < K -> nth_error traces k = Some (Trace (if mc then numbered "Option " (k + 1) else numbered "" k) (cyclic P k) Lines (curve_points nan points k))
    | Some g => length traces = 3 * K /\
        forall k, k < K ->
          nth_error traces (3 * k) = Some (Trace (if mc then numbered "Option " (k + 1) else numbered "" k) (cyclic P k) Lines (curve_points nan points k)) /\
          nth_error traces (3 * k + 1) = Some (Trace "Data"%string (cyclic P k) OpenMarks (map (fun p => (fst p, nth k (fst (snd p)) nan)) g)) /\
          nth_error traces (3 * k + 2) = Some (Trace "Model"%string (cyclic P k) FilledMarks (map (fun p => (fst p, nth k (snd (snd p)) nan)) g))
    end.
Proof.
  intros V nan P past mc K points groups HP. destruct (session_copies nan P past HP 1 (le_n 1)) as (n & Hn & E). rewrite repeated_one in E. rewrite E.
  unfold item_curves. cbn [andb]. destruct (longer_copies P n K HP Hn) as (n' & Hn' & E'). rewrite E'. eexists. split; [reflexivity|].
  assert (C : forall k, nth (k mod length (repeated P n')) (repeated P n') EmptyString = cyclic P k) by (intro k; now apply copies_nth).
  destruct groups as [g|].
  - split; [apply (flat_length 3); reflexivity|]. intros k Hk. rewrite <- (Nat.add_0_r (3 * k)) at 1. rewrite !(flat_nth 3) by (reflexivity || lia). cbn [nth_error]. rewrite C. auto.
  - split; [rewrite (flat_length 1) by reflexivity; lia|]. intros k Hk. replace k with (1 * k + 0) at 1 by lia. rewrite (flat_nth 1) by (reflexivity || lia). cbn [nth_error]. now rewrite C.
Qed.
Print Assumptions C136_curves.

(** The same for surfaces over two latent variables with a square number of points; so the colours of the categories of
    one item agree between both kinds of figures. *)
Theorem C136_surfaces : forall V (nan : V) P past K points, P <> [] -> (exists s, s * s = length points) ->
  exists traces, fst (item_surfaces nan (session nan P past) false K points) = Ok traces /\ length traces = K /\
    forall k, k < K -> nth_error traces k = Some (Trace (numbered "Response " k) (cyclic P k) Lines (map (fun p => (fst p, nth k (snd p) nan)) points)).
Proof.
  intros V nan P past K points HP (s & Hs). destruct (session_copies nan P past HP 1 (le_n 1)) as (n & Hn & E). rewrite repeated_one in E. rewrite E.
  unfold item_surfaces. cbn [andb]. rewrite <- Hs, Nat.sqrt_square, Nat.eqb_refl. cbn [negb fst]. destruct (longer_copies_in_place P n K HP Hn) as (n' & Hn' & E'). rewrite E'. eexists. split; [reflexivity|].
  split; [now rewrite map_length, seq_length|]. intros k Hk. rewrite nth_error_map, (nth_error_nth' _ 0) by (rewrite seq_length; exact Hk). cbn [option_map]. rewrite seq_nth by exact Hk. cbn [Nat.add]. rewrite (copies_nth P n' k EmptyString HP Hn'). reflexivity.
Qed.
Print Assumptions C136_surfaces.

(** The lines of the figure of a scale, after any figures: those of the first variables have the colours of [P] in turn, or all
    the colour asked for. *)
Theorem C136_scale_lines : forall V (nan : V) P past color i, P <> [] ->
  scale_line (session nan P past) color i = (numbered "Latent variable " (i + 1), match color with Some c => c | None => cyclic P i end).
Proof.
  intros V nan P past color i HP. destruct (session_copies nan P past HP 1 (le_n 1)) as (n & Hn & E). rewrite repeated_one in E. rewrite E. unfold scale_line. destruct color; [reflexivity|]. now rewrite (copies_nth P n i EmptyString HP Hn).
Qed.
Print Assumptions C136_scale_lines.

(** Grayscale figures of two or more categories, curves or surfaces: the colour of category [k] is a gray whose level is the
    integer part of 176 (K - 1 - k) / (K - 1), from light to black.  All categories have different grays exactly
    when there are at most 177. *)
Theorem C136_gray : forall V (nan : V) P past mc K points points2, 2 <= K -> (exists s, s * s = length points2) ->
  let P' := session nan P past in
  exists traces traces2 l, item_curves nan P' mc true K points None = Ok traces /\ item_surfaces nan P' true K points2 = (Ok traces2, P') /\
    length traces = K /\ length traces2 = K /\
    (forall k, k < K -> option_map t_colour (nth_error traces k) = Some (gray_of (l k)) /\ option_map t_colour (nth_error traces2 k) = Some (gray_of (l k)) /\
       l k * (K - 1) <= 176 * (K - 1 - k) < (l k + 1) * (K - 1)) /\
    gray_of (l 0) = "#b0b0b0"%string /\ gray_of (l (K - 1)) = "#000000"%string /\
    (NoDup (map t_colour traces) <-> K <= 177).
Proof.
  intros V nan P past mc K points points2 HK (s & Hs) P'. unfold item_curves, item_surfaces. rewrite <- Hs, Nat.sqrt_square, Nat.eqb_refl. cbn [negb andb]. destruct (Nat.eqb_spec K 1); [lia|].
  rewrite gray_colours_length, Nat.ltb_irrefl.
  assert (C : forall k, k < K -> nth (k mod length (gray_colours K)) (gray_colours K) EmptyString = gray (level K k)) by (intros k Hk; rewrite gray_colours_length, Nat.mod_small by exact Hk; now apply gray_nth).
  assert (G : forall k, k < K -> gray (level K k) = gray_of (level K k)) by (intros k Hk; pose proof (level_bound K k HK); unfold gray, gray_of; rewrite hex_is by lia; reflexivity).
  eexists. eexists. exists (level K). split; [reflexivity|]. split; [reflexivity|]. split; [rewrite (flat_length 1) by reflexivity; lia|]. split; [now rewrite map_length, seq_length|].
  split; [|split; [|split]].
  - intros k Hk. split; [|split].
    + replace k with (1 * k + 0) at 1 by lia. rewrite (flat_nth 1) by (reflexivity || lia). cbn [nth_error option_map t_colour]. now rewrite C, G.
    + rewrite nth_error_map, (nth_error_nth' _ 0) by (rewrite seq_length; exact Hk). cbn [option_map t_colour]. rewrite seq_nth by exact Hk. cbn [Nat.add]. now rewrite C, G.
    + now apply level_real.
  - rewrite level_first by exact HK. reflexivity.
  - rewrite level_last by exact HK. reflexivity.
  - rewrite <- (gray_distinct K HK). match goal with |- NoDup ?a <-> _ => replace a with (gray_colours K) end; [reflexivity|].
    apply (nth_ext _ _ EmptyString EmptyString); [rewrite map_length, (flat_length 1), gray_colours_length by reflexivity; lia|]. rewrite gray_colours_length. intros k Hk. rewrite gray_nth by exact Hk.
    symmetry. apply nth_error_nth. rewrite nth_error_map. replace k with (1 * k + 0) at 1 by lia. rewrite (flat_nth 1) by (reflexivity || lia). cbn [nth_error option_map t_colour]. now rewrite ?gray_colours_length, Nat.mod_small, gray_nth by exact Hk.
Qed.
Print Assumptions C136_gray.

(** Drawing changes what is drawn with: after a surface of an item with more categories than the palette has colours, the palette
    shared by all plots of the session is longer. *)
Theorem C136_palette_refuted : forall V (nan : V) P K points, P <> [] -> length P < K -> (exists s, s * s = length points) ->
  length (session nan P [Surfaces false K points]) = length P * (K / length P + 2) /\ length P < length (session nan P [Surfaces false K points]).
Proof.
  intros V nan P K points HP HK (s & Hs). unfold session. cbn [fold_left palette_after]. unfold item_surfaces. rewrite <- Hs, Nat.sqrt_square, Nat.eqb_refl. cbn [negb andb snd].
  rewrite (proj2 (Nat.ltb_lt _ _) HK), app_length, repeated_length. assert (length P <> 0) by (destruct P; [contradiction|cbn; lia]). nia.
Qed.
Print Assumptions C136_palette_refuted.

(** Items of one category cannot be drawn in grayscale. *)
Theorem C136_single_refuted : forall V (nan : V) P mc points groups, item_curves nan P mc true 1 points groups = Err ValueError /\
  exists traces, item_curves nan P mc false 1 points groups = Ok traces.
Proof. intros V nan P mc points groups. split; [reflexivity|]. eexists. unfold item_curves. cbn [andb]. reflexivity. Qed.
Print Assumptions C136_single_refuted.

(** The same answer has different numbers in the two kinds of figures when the answers are options of a multiple choice item. *)
Theorem C136_numbers_refuted : forall V (nan : V) P points points2, P <> [] -> (exists s, s * s = length points2) ->
  exists t t2, item_curves nan P true false 2 points None = Ok t /\ fst (item_surfaces nan P false 2 points2) = Ok t2 /\
    option_map t_name (nth_error t 0) = Some "Option 1"%string /\ option_map t_name (nth_error t2 0) = Some "Response 0"%string /\
    option_map t_name (nth_error t 1) = Some "Option 2"%string /\ option_map t_name (nth_error t2 1) = Some "Response 1"%string.
Proof.
  intros V nan P points points2 HP HS. destruct (C136_curves V nan P [] true 2 points None HP) as (t & E & _ & H). destruct (C136_surfaces V nan P [] 2 points2 HP HS) as (t2 & E2 & _ & H2).
  exists t, t2. split; [exact E|]. split; [exact E2|]. rewrite !H, !H2 by lia. cbn [option_map t_name]. repeat split; reflexivity.
Qed.
Print Assumptions C136_numbers_refuted.

(** A session: a surface of an item with four categories lengthens a palette of three colours to nine; a curve figure
    of five categories drawn afterwards starts again with the first colour at the fourth. *)
Definition ex_palette : list string := ["red"; "green"; "blue"]%string.
Definition ex_past : list (@request R) := [Surfaces false 4 [((0%R, 0%R), [1%R; 0%R; 0%R; 0%R])]; Curves true true 3 [] None].
Example C136_nonvacuous :
  length (session 0%R ex_palette ex_past) = 9 /\
  exists t, item_curves 0%R (session 0%R ex_palette ex_past) false false 5 [(0%R, [1%R; 0%R; 0%R; 0%R; 0%R])] None = Ok t /\
    map t_colour t = ["red"; "green"; "blue"; "red"; "green"]%string /\ map t_name t = ["0"; "1"; "2"; "3"; "4"]%string /\
    map t_points t = [[(0, 1)]; [(0, 0)]; [(0, 0)]; [(0, 0)]; [(0, 0)]]%R /\
  gray_colours 3 = ["#b0b0b0"; "#585858"; "#000000"]%string.
Proof. split; [reflexivity|]. eexists. split; [reflexivity|]. repeat split; reflexivity. Qed.
