(** Property C138: the figure of two latent variables. *)
From Coq Require Import Permutation.
From Verif Require Import Base BaseFacts RBase RFacts M_Logit M_Est M_Hist P_Est3 S_Hist P_Hist.
Import List.
Local Open Scope R_scope.

Local Lemma map_ne {A B} (f : A -> B) l : l <> [] -> map f l <> [].
Proof. destruct l; [congruence|discriminate]. Qed.

(** C138.  Every respondent lies in exactly one of the bins x bins cells spanned by the values of the two variables;
    volume over a cell is the share of the respondents in it, and the point of the figure is the middle of the cell. *)
Theorem C138_figure scores bins : scores <> [] -> (0 < bins)%nat -> exists fig lox wx loy wy,
  two_variables_plot scores (Some bins) = Ok fig /\
  spans (map fst scores) bins lox wx /\ spans (map snd scores) bins loy wy /\
  c_x fig = middles bins lox wx /\ c_y fig = middles bins loy wy /\
  length (c_z fig) = bins /\ Forall (fun row => length row = bins) (c_z fig) /\
  (forall a b, (a < bins)%nat -> (b < bins)%nat -> exists h, height fig a b = Some h /\
     h * (wx * wy) = INR (respondents_in bins lox wx loy wy scores a b) / INR (length scores)).
Proof.
  intros Hs Hb. destruct (plot_is scores bins Hb Hs) as (lox & wx & loy & wy & SX & SY & E). eexists. exists lox, wx, loy, wy. split; [exact E|]. split; [exact SX|]. split; [exact SY|]. split; [reflexivity|]. split; [reflexivity|]. cbn [c_z]. split; [unfold heights; now rewrite map_length, seq_length|]. split.
  - apply Forall_forall. intros row Hr. unfold heights in Hr. apply in_map_iff in Hr as (b & <- & _). now rewrite map_length, seq_length.
  - intros a b Ha Hb'. rewrite heights_at by assumption. eexists. split; [reflexivity|]. destruct SX as (WX & _), SY as (WY & _). assert (0 < INR (length scores)) by (apply lt_0_INR; destruct scores; [congruence|cbn; lia]). field. lra.
Qed.
Print Assumptions C138_figure.

Theorem C138_everybody scores bins : scores <> [] -> (0 < bins)%nat -> exists fig lox wx loy wy h,
  two_variables_plot scores (Some bins) = Ok fig /\
  spans (map fst scores) bins lox wx /\ spans (map snd scores) bins loy wy /\
  (forall s, In s scores -> exists a b, (a < bins)%nat /\ (b < bins)%nat /\
     forall a' b', (a' < bins)%nat -> (b' < bins)%nat -> (inside bins lox wx a' (fst s) && inside bins loy wy b' (snd s) = true <-> a' = a /\ b' = b)) /\
  (forall a b, (a < bins)%nat -> (b < bins)%nat -> height fig a b = Some (h a b) /\ 0 <= h a b) /\
  sumn bins (fun a => sumn bins (fun b => h a b * (wx * wy))) = 1.
Proof.
  intros Hs Hb. destruct (plot_is scores bins Hb Hs) as (lox & wx & loy & wy & SX & SY & E). eexists. exists lox, wx, loy, wy, (fun a b => INR (respondents_in bins lox wx loy wy scores a b) / wx / wy / INR (length scores)).
  assert (NS : 0 < INR (length scores)) by (apply lt_0_INR; destruct scores; [congruence|cbn; lia]). pose proof (proj1 SX) as WX. pose proof (proj1 SY) as WY.
  split; [exact E|]. split; [exact SX|]. split; [exact SY|]. split; [|split].
  - intros s Hin. destruct (inside_exists bins lox wx (fst s) WX Hb (proj1 (proj2 SX) _ (in_map _ _ _ Hin))) as (a & Ha & Ia). destruct (inside_exists bins loy wy (snd s) WY Hb (proj1 (proj2 SY) _ (in_map _ _ _ Hin))) as (b & Hb' & Ib). exists a, b. split; [exact Ha|]. split; [exact Hb'|]. intros a' b' Ha' Hb''. rewrite andb_true_iff. split.
    + intros [I1 I2]. split; [apply (inside_unique bins lox wx a' a (fst s))|apply (inside_unique bins loy wy b' b (snd s))]; assumption.
    + intros [-> ->]. auto.
  - intros a b Ha Hb'. split; [now apply heights_at|]. apply Rmult_le_pos; [|apply Rlt_le, Rinv_0_lt_compat, NS]. apply Rmult_le_pos; [|apply Rlt_le, Rinv_0_lt_compat, WY]. apply Rmult_le_pos; [apply pos_INR|apply Rlt_le, Rinv_0_lt_compat, WX].
  - rewrite (sumn_ext _ _ (fun a => / INR (length scores) * sumn bins (fun b => INR (respondents_in bins lox wx loy wy scores a b)))).
    + rewrite sumn_scal, (sum_all bins lox wx loy wy scores Hb Hs SX SY). field. lra.
    + intros a Ha. rewrite <- sumn_scal. apply sumn_ext. intros b Hb'. field. lra.
Qed.
Print Assumptions C138_everybody.

(** Exchanging the two latent variables turns the figure; the order of the respondents does not matter. *)
Theorem C138_exchange scores bins : scores <> [] -> (0 < bins)%nat -> exists fig fig',
  two_variables_plot scores (Some bins) = Ok fig /\
  two_variables_plot (map (fun s => (snd s, fst s)) scores) (Some bins) = Ok fig' /\
  c_x fig' = c_y fig /\ c_y fig' = c_x fig /\
  forall a b, (a < bins)%nat -> (b < bins)%nat -> height fig' b a = height fig a b.
Proof.
  intros Hs Hb. destruct (plot_is scores bins Hb Hs) as (lox & wx & loy & wy & SX & SY & E). set (scores' := map (fun s => (snd s, fst s)) scores) in *. assert (Hs' : scores' <> []) by (unfold scores'; destruct scores; [congruence|discriminate]). assert (NF : map fst scores <> []) by (destruct scores; [congruence|discriminate]). assert (NSn : map snd scores <> []) by (destruct scores; [congruence|discriminate]).
  destruct (plot_is scores' bins Hb Hs') as (lox' & wx' & loy' & wy' & SX' & SY' & E').
  assert (M1 : map fst scores' = map snd scores) by (unfold scores'; rewrite map_map; reflexivity). assert (M2 : map snd scores' = map fst scores) by (unfold scores'; rewrite map_map; reflexivity). rewrite M1 in SX'. rewrite M2 in SY'.
  destruct (spans_unique _ _ _ _ _ _ Hb NSn SX' SY) as [-> ->]. destruct (spans_unique _ _ _ _ _ _ Hb NF SY' SX) as [-> ->].
  eexists. eexists. split; [exact E|]. split; [exact E'|]. split; [reflexivity|]. split; [reflexivity|]. intros a b Ha Hb'. rewrite !heights_at by assumption. f_equal.
  assert (RC : respondents_in bins loy wy lox wx scores' b a = respondents_in bins lox wx loy wy scores a b).
  { unfold respondents_in, scores'. clear. induction scores as [|s l IH]; [reflexivity|]. cbn [map filter fst snd]. rewrite (andb_comm (inside bins loy wy b (snd s))). destruct (inside bins lox wx a (fst s) && inside bins loy wy b (snd s)); cbn [length]; now rewrite IH. }
  rewrite RC. unfold scores'. rewrite map_length. assert (0 < INR (length scores)) by (apply lt_0_INR; destruct scores; [congruence|cbn; lia]). destruct SX as (WX & _), SY as (WY & _). field. lra.
Qed.
Print Assumptions C138_exchange.

Theorem C138_order scores scores' bins : Permutation scores scores' -> two_variables_plot scores bins = two_variables_plot scores' bins.
Proof.
  intro P. destruct scores as [|s0 l] eqn:ES; [apply Permutation_nil in P; now rewrite P|]. rewrite <- ES in *. assert (Hs : scores <> []) by (rewrite ES; discriminate). clear ES s0 l. assert (Hs' : scores' <> []) by (intros ->; apply Hs, Permutation_nil, Permutation_sym, P).
  assert (G : forall n, two_variables_plot scores (Some n) = two_variables_plot scores' (Some n)).
  { intros n. destruct (Nat.eq_dec n 0) as [->|N]; [reflexivity|]. assert (Hb : (0 < n)%nat) by lia. destruct (plot_is scores n Hb Hs) as (lox & wx & loy & wy & SX & SY & E). destruct (plot_is scores' n Hb Hs') as (lox' & wx' & loy' & wy' & SX' & SY' & E').
    assert (SX2 : spans (map fst scores') n lox wx) by (apply (spans_same (map fst scores)); [|exact SX]; intro x; split; apply Permutation_in, Permutation_map; [exact P|now apply Permutation_sym]). assert (SY2 : spans (map snd scores') n loy wy) by (apply (spans_same (map snd scores)); [|exact SY]; intro x; split; apply Permutation_in, Permutation_map; [exact P|now apply Permutation_sym]).
    destruct (spans_unique _ _ _ _ _ _ Hb (map_ne fst scores' Hs') SX' SX2) as [-> ->]. destruct (spans_unique _ _ _ _ _ _ Hb (map_ne snd scores' Hs') SY' SY2) as [-> ->].
    rewrite E, E'. f_equal. f_equal. unfold heights. rewrite (Permutation_length P). apply map_ext. intro b. apply map_ext. intro a. unfold respondents_in. rewrite (filter_perm _ _ _ P). reflexivity. }
  destruct bins as [n|]; [apply G|]. pose proof (Permutation_length P) as L. unfold two_variables_plot in *. rewrite <- L. destruct (default_bins (length scores)) as [n|e]; [exact (G n)|reflexivity].
Qed.
Print Assumptions C138_order.

(** Other units of the latent variables: the axes follow, the heights are divided. *)
Theorem C138_units scores bins k c l d : 0 < k -> 0 < l -> (0 < bins)%nat -> differ (map fst scores) -> differ (map snd scores) -> exists fig fig',
  two_variables_plot scores (Some bins) = Ok fig /\
  two_variables_plot (map (fun s => (k * fst s + c, l * snd s + d)) scores) (Some bins) = Ok fig' /\
  c_x fig' = map (fun x => k * x + c) (c_x fig) /\ c_y fig' = map (fun y => l * y + d) (c_y fig) /\
  forall a b, (a < bins)%nat -> (b < bins)%nat -> exists h, height fig a b = Some h /\ height fig' a b = Some (h / (k * l)).
Proof.
  intros Hk Hl Hb DX DY. assert (Hs : scores <> []) by (intros ->; destruct DX as (x & y & [] & _)). destruct (plot_is scores bins Hb Hs) as (lox & wx & loy & wy & SX & SY & E). set (scores' := map (fun s => (k * fst s + c, l * snd s + d)) scores) in *. assert (Hs' : scores' <> []) by (unfold scores'; destruct scores; [congruence|discriminate]).
  destruct (plot_is scores' bins Hb Hs') as (lox' & wx' & loy' & wy' & SX' & SY' & E').
  assert (G : forall m xs lo w e, 0 < m -> differ xs -> spans xs bins lo w -> spans (map (fun x => m * x + e) xs) bins (m * lo + e) (m * w)).
  { intros m xs lo w e Hm (x & y & Ix & Iy & Nxy) (W & RG & D). split; [nra|]. split.
    - intros z Hz. apply in_map_iff in Hz as (v & <- & Hv). specialize (RG v Hv). split; [nra|]. replace (m * lo + e + INR bins * (m * w)) with (m * (lo + INR bins * w) + e) by ring. nra.
    - left. destruct D as [[D1 D2]|[D1 D2]]; [|exfalso; apply Nxy; rewrite (D2 x Ix), (D2 y Iy); reflexivity]. split; apply in_map_iff; [exists lo; auto|exists (lo + INR bins * w); split; [ring|exact D2]]. }
  assert (I : forall m lo w e a x, 0 < m -> inside bins (m * lo + e) (m * w) a (m * x + e) = inside bins lo w a x).
  { intros m lo w e a x Hm. apply eq_true_iff_eq. rewrite !insideP. replace (m * lo + e + INR a * (m * w)) with (m * (lo + INR a * w) + e) by ring. replace (m * lo + e + INR (S a) * (m * w)) with (m * (lo + INR (S a) * w) + e) by ring. replace (m * lo + e + INR bins * (m * w)) with (m * (lo + INR bins * w) + e) by ring. split.
    - intros [A B]. split; [nra|]. destruct B as [B|[B1 B2]]; [left; nra|right; split; [exact B1|]]. apply Rmult_eq_reg_l with m; lra.
    - intros [A B]. split; [nra|]. destruct B as [B|[B1 B2]]; [left; nra|right; split; [exact B1|]]. rewrite B2. reflexivity. }
  pose proof (G k _ _ _ c Hk DX SX) as SX2. pose proof (G l _ _ _ d Hl DY SY) as SY2.
  assert (M1 : map fst scores' = map (fun x => k * x + c) (map fst scores)) by (unfold scores'; rewrite !map_map; reflexivity). assert (M2 : map snd scores' = map (fun x => l * x + d) (map snd scores)) by (unfold scores'; rewrite !map_map; reflexivity). rewrite <- M1 in SX2. rewrite <- M2 in SY2.
  destruct (spans_unique _ _ _ _ _ _ Hb (map_ne fst scores' Hs') SX' SX2) as [-> ->]. destruct (spans_unique _ _ _ _ _ _ Hb (map_ne snd scores' Hs') SY' SY2) as [-> ->].
  eexists. eexists. split; [exact E|]. split; [exact E'|]. cbn [c_x c_y]. split; [unfold middles; rewrite map_map; apply map_ext; intro a; ring|]. split; [unfold middles; rewrite map_map; apply map_ext; intro a; ring|].
  intros a b Ha Hb'. rewrite !heights_at by assumption. eexists. split; [reflexivity|]. f_equal.
  assert (RC : respondents_in bins (k * lox + c) (k * wx) (l * loy + d) (l * wy) scores' a b = respondents_in bins lox wx loy wy scores a b).
  { unfold respondents_in, scores'. clear - I Hk Hl. induction scores as [|s r IH]; [reflexivity|]. cbn [map filter fst snd]. rewrite !I by assumption. destruct (inside bins lox wx a (fst s) && inside bins loy wy b (snd s)); cbn [length]; now rewrite IH. }
  rewrite RC. unfold scores'. rewrite map_length. assert (0 < INR (length scores)) by (apply lt_0_INR; destruct scores; [congruence|cbn; lia]). destruct SX as (WX & _), SY as (WY & _). field. lra.
Qed.
Print Assumptions C138_units.

(** Without a number of bins it is the logarithm of the number of respondents, rounded down, plus one. *)
Theorem C138_default_bins scores : scores <> [] -> exists n,
  two_variables_plot scores None = two_variables_plot scores (Some n) /\ (2 ^ (n - 1) <= length scores < 2 ^ n)%nat.
Proof.
  intro Hs. assert (L : (0 < length scores)%nat) by (destruct scores; [congruence|cbn; lia]). exists (Nat.log2 (length scores) + 1)%nat. split.
  - unfold two_variables_plot, default_bins. destruct (length scores) as [|n]; [lia|reflexivity].
  - pose proof (Nat.log2_spec (length scores) L) as [A B]. rewrite Nat.add_sub, Nat.add_1_r. split; assumption.
Qed.
Print Assumptions C138_default_bins.

(** The documented rule (Sturges) rounds up: unless the number of respondents is a power of two, the figure has one bin
    less on each axis than documented. *)
Theorem C138_sturges_refuted scores : scores <> [] -> (forall j, length scores <> 2 ^ j)%nat -> exists fig documented,
  two_variables_plot scores None = Ok fig /\ two_variables_plot scores (Some (sturges (length scores))) = Ok documented /\
  S (length (c_x fig)) = length (c_x documented) /\ S (length (c_y fig)) = length (c_y documented) /\ S (length (c_z fig)) = length (c_z documented).
Proof.
  intros Hs Hn. assert (L : (0 < length scores)%nat) by (destruct scores; [congruence|cbn; lia]). assert (E0 : two_variables_plot scores None = two_variables_plot scores (Some (Nat.log2 (length scores) + 1)%nat)) by (unfold two_variables_plot, default_bins; destruct (length scores) as [|n]; [lia|reflexivity]).
  assert (U : sturges (length scores) = S (Nat.log2 (length scores) + 1)).
  { unfold sturges. f_equal. rewrite Nat.add_1_r. pose proof (Nat.le_log2_up_succ_log2 (length scores)); pose proof (Nat.le_log2_log2_up (length scores)).
    destruct (Nat.eq_dec (Nat.log2 (length scores)) (Nat.log2_up (length scores))) as [Q|Q]; [exfalso; apply Nat.log2_log2_up_exact in Q; [|exact L]; destruct Q as (b & Hb); exact (Hn b Hb)|lia]. }
  rewrite U, E0. destruct (plot_is scores (Nat.log2 (length scores) + 1)%nat ltac:(lia) Hs) as (lox & wx & loy & wy & _ & _ & E). destruct (plot_is scores (S (Nat.log2 (length scores) + 1))%nat ltac:(lia) Hs) as (lox' & wx' & loy' & wy' & _ & _ & E').
  eexists. eexists. split; [exact E|]. split; [exact E'|]. cbn [c_x c_y c_z]. unfold middles, heights. rewrite !map_length, !seq_length. auto.
Qed.
Print Assumptions C138_sturges_refuted.

(** Without respondents: an error, or, if the number of bins is given, no height at all (NaN everywhere). *)
Theorem C138_nobody bins : two_variables_plot [] None = Err OtherError /\ ((0 < bins)%nat -> exists fig,
  two_variables_plot [] (Some bins) = Ok fig /\ length (c_z fig) = bins /\ Forall (fun row => length row = bins /\ Forall (eq None) row) (c_z fig)).
Proof.
  split; [reflexivity|]. intro Hb. unfold two_variables_plot. cbn [bind]. unfold histogram2d. destruct (Nat.eqb_spec bins 0); [lia|]. cbn [bind]. eexists. split; [reflexivity|]. cbn [c_z]. unfold turned. split; [now rewrite map_length, seq_length|].
  match goal with |- context [(?t =? 0)%nat] => assert (Z : t = 0%nat) by (apply list_sum_zero; intro; now apply list_sum_zero); rewrite Z end. cbn [Nat.eqb]. apply Forall_forall. intros row Hr. apply in_map_iff in Hr as (b & <- & Hb'). split; [now rewrite !map_length, seq_length|]. apply Forall_forall. intros v Hv. apply in_map_iff in Hv as (r & <- & Hr'). apply in_map_iff in Hr' as (a & <- & _). symmetry. generalize (seq 0 bins). clear. intro l. revert b. induction l; destruct b; cbn; auto.
Qed.
Print Assumptions C138_nobody.

(** Three respondents at (0, 0), (2, 1) and (1, 1): two bins per axis by default; the second and the third share a cell. *)
Example C138_nonvacuous : let scores := [(0, 0); (2, 1); (1, 1)] in
  scores <> [] /\ differ (map fst scores) /\ differ (map snd scores) /\ (forall j, length scores <> 2 ^ j)%nat /\
  spans (map fst scores) 2 0 1 /\ spans (map snd scores) 2 0 (/ 2) /\
  respondents_in 2 0 1 0 (/ 2) scores 0 0 = 1%nat /\ respondents_in 2 0 1 0 (/ 2) scores 1 1 = 2%nat /\ respondents_in 2 0 1 0 (/ 2) scores 1 0 = 0%nat /\
  Permutation scores [(1, 1); (0, 0); (2, 1)] /\
  exists fig, two_variables_plot scores None = Ok fig /\ c_x fig = [/ 2; 3 / 2] /\ height fig 0 0 = Some (2 / 3) /\ height fig 1 1 = Some (4 / 3).
Proof.
  cbv zeta. set (scores := [(0, 0); (2, 1); (1, 1)]). assert (Hs : scores <> []) by discriminate.
  assert (S1 : spans (map fst scores) 2 0 1) by (split; [lra|]; split; [cbn; intros x [<-|[<-|[<-|[]]]]; lra|left; cbn; split; [auto|right; left; lra]]).
  assert (S2 : spans (map snd scores) 2 0 (/ 2)) by (split; [lra|]; split; [cbn; intros x [<-|[<-|[<-|[]]]]; lra|left; cbn; split; [auto|right; left; lra]]).
  assert (I : forall w a x (b : bool), (if b then 0 + INR a * w <= x /\ (x < 0 + INR (S a) * w \/ S a = 2%nat /\ x = 0 + INR 2 * w) else x < 0 + INR a * w \/ (x >= 0 + INR (S a) * w /\ (S a <> 2%nat \/ x <> 0 + INR 2 * w))) -> inside 2 0 w a x = b).
  { intros w a x [|] H; [now apply insideP|]. destruct (inside 2 0 w a x) eqn:Q; [|reflexivity]. apply insideP in Q. exfalso. destruct H as [H|[H1 H2]], Q as [Q1 [Q2|[Q2 Q3]]]; try lra; destruct H2; contradiction. }
  assert (C : respondents_in 2 0 1 0 (/ 2) scores 0 0 = 1%nat /\ respondents_in 2 0 1 0 (/ 2) scores 1 1 = 2%nat /\ respondents_in 2 0 1 0 (/ 2) scores 1 0 = 0%nat).
  { unfold respondents_in, scores. cbn [filter fst snd].
    rewrite (I 1 0%nat 0 true), (I (/ 2) 0%nat 0 true), (I 1 0%nat 2 false), (I 1 0%nat 1 false), (I 1 1%nat 0 false), (I 1 1%nat 2 true), (I 1 1%nat 1 true), (I (/ 2) 1%nat 1 true), (I (/ 2) 0%nat 1 false); [cbn; auto|..]; cbn [INR]; try (split; [lra|first [left; lra|right; split; [reflexivity|lra]]]); try (left; lra); right; split; try lra; left; discriminate. }
  split; [exact Hs|]. split; [exists 0, 2; cbn; split; [auto|split; [auto|lra]]|]. split; [exists 0, 1; cbn; split; [auto|split; [auto|lra]]|]. split; [intros [|[|j]]; cbn; lia|]. split; [exact S1|]. split; [exact S2|]. destruct C as (C1 & C2 & C3). split; [exact C1|]. split; [exact C2|]. split; [exact C3|].
  split; [apply Permutation_sym, (Permutation_middle [(0, 0); (2, 1)] [] (1, 1))|].
  destruct (plot_is scores 2 ltac:(lia) Hs) as (lox & wx & loy & wy & SX & SY & E).
  destruct (spans_unique (map fst scores) 2 lox wx 0 1 ltac:(lia) ltac:(discriminate) SX S1) as [-> ->]. destruct (spans_unique (map snd scores) 2 loy wy 0 (/ 2) ltac:(lia) ltac:(discriminate) SY S2) as [-> ->].
  eexists. split; [exact E|]. cbn [c_x]. split; [unfold middles; cbn; f_equal; [lra|f_equal; lra]|]. rewrite !heights_at by lia. rewrite C1, C2. unfold scores. cbn [length INR]. split; f_equal; field.
Qed.
