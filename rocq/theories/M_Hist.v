(** Model of the figure of two latent variables, irtorch/plotter.py:1285-1308 (_two_latent_variables_distribution_plot),
    with numpy.histogram2d(x, y, bins=n, density=True).  Definitions only.  Floats are finite reals; numpy raises
    ValueError when a score is not finite. *)
From Verif Require Import Base RBase M_Logit M_Est M_Scale M_Plot.
Import List.
Local Open Scope R_scope.

(** numpy's _get_outer_edges, used at plotter.py:1296: the range of the values; 0 to 1 if there are none; widened by
    one half on both sides if all are the same. *)
Definition outer_edges (xs : list R) : R * R :=
  match xs with
  | [] => (0, 1)
  | _ => let lo := rmin_list xs in let hi := rmax_list xs in
         if Req_EM_T lo hi then (lo - / 2, hi + / 2) else (lo, hi)
  end.
(** The edges of the bins, [numpy.linspace] of their ends; plotter.py:1296. *)
Definition bin_edges (xs : list R) (bins : nat) : list R := linspace (fst (outer_edges xs)) (snd (outer_edges xs)) (bins + 1).
(** [numpy.searchsorted(edges, x, side="right")], less one for values on the last edge; 0 and [bins + 1] are the
    bins of outliers, which are cut off.  plotter.py:1296. *)
Definition bin_of (edges : list R) (x : R) : nat :=
  let n := length (filter (fun e => if Rle_dec e x then true else false) edges) in
  if Req_EM_T x (last edges 0) then (n - 1)%nat else n.
(** Number of respondents in bin [a] of the first and bin [b] of the second variable; plotter.py:1296. *)
Definition bin_count (ex ey : list R) (scores : list (R * R)) (a b : nat) : nat :=
  length (filter (fun s => ((bin_of ex (fst s) =? S a) && (bin_of ey (snd s) =? S b))%nat) scores).
(** numpy.diff of the edges, plotter.py:1296. *)
Definition bin_width (edges : list R) (a : nat) : R := nth (S a) edges 0 - nth a edges 0.
(** [histogram2d] with density=True: counts divided by the widths and by their sum (0/0 is NaN = [None]). plotter.py:1296. *)
Definition histogram2d (scores : list (R * R)) (bins : nat) : result (list (list (option R)) * list R * list R) :=
  if (bins =? 0)%nat then Err ValueError
  else
    let ex := bin_edges (map fst scores) bins in
    let ey := bin_edges (map snd scores) bins in
    let total := list_sum (map (fun a => list_sum (map (bin_count ex ey scores a) (seq 0 bins))) (seq 0 bins)) in
    Ok (map (fun a => map (fun b =>
          if (total =? 0)%nat then None
          else Some (INR (bin_count ex ey scores a b) / bin_width ex a / bin_width ey b / INR total)) (seq 0 bins)) (seq 0 bins), ex, ey).
(** [(edges[:-1] + edges[1:]) / 2], plotter.py:1297-1298. *)
Definition bin_centers (edges : list R) : list R := zip_with (fun a b => (a + b) / 2) (removelast edges) (tl edges).
(** [histogram2d.T] for [n] columns, plotter.py:1301. *)
Definition turned (n : nat) (h : list (list (option R))) : list (list (option R)) := map (fun b => map (fun row => nth b row None) h) (seq 0 n).
(** [int(np.log2(n)) + 1], plotter.py:1295; log2 of 0 is -inf, of which int() raises OverflowError (here OtherError).  Simplification:
    np.log2 is exact enough for the integer part (it is for n < 2^48). *)
Definition default_bins (n : nat) : result nat := match n with O => Err OtherError | _ => Ok (Nat.log2 n + 1)%nat end.
(** The contour plot: heights z (z[j][i] belongs to x[i] and y[j]), x and y.  plotter.py:1294-1308. *)
Record contour := { c_z : list (list (option R)); c_x : list R; c_y : list R }.
(** plotter.py:1294-1308. *)
Definition two_variables_plot (scores : list (R * R)) (bins : option nat) : result contour :=
  bind (match bins with Some n => Ok n | None => default_bins (length scores) end) (fun n =>
  bind (histogram2d scores n) (fun '(h, ex, ey) =>
  Ok {| c_z := turned n h; c_x := bin_centers ex; c_y := bin_centers ey |})).
