(** Lemmas for splines of several variables. *)
From Verif Require Import Base BaseFacts RBase RFacts M_Data M_Logit M_Mono M_Est M_Spline M_SplineT P_Spline2 P_Spline3 P_Spline4 S_Spline S_SplineT.
Import List.
Local Open Scope R_scope.

Lemma select_combine {A B} mask : forall (a : list A) (b : list B), combine (mask_select mask a) (mask_select mask b) = mask_select mask (combine a b) \/ length a <> length mask \/ length b <> length mask.
Proof.
  induction mask as [|x mask IH]; intros a b; [left; reflexivity|]. destruct a as [|a0 a]; [right; left; discriminate|]. destruct b as [|b0 b]; [right; right; discriminate|].
  destruct (IH a b) as [H|[H|H]]; [|right; left; cbn; congruence|right; right; cbn; congruence]. left. cbn [mask_select combine]. destruct x; cbn [combine]; now rewrite H.
Qed.
Lemma select_combine_len {A B} mask (a : list A) (b : list B) : length a = length mask -> length b = length mask -> combine (mask_select mask a) (mask_select mask b) = mask_select mask (combine a b).
Proof. intros H1 H2. destruct (select_combine mask a b) as [H|[H|H]]; congruence. Qed.
Lemma mapM_select {A B} (f : A -> result B) mask : forall l G, length l = length mask -> length G = length mask ->
  (forall p a v, nth_error mask p = Some true -> nth_error l p = Some a -> nth_error G p = Some v -> f a = Ok v) -> mapM f (mask_select mask l) = Ok (mask_select mask G).
Proof.
  induction mask as [|b mask IH]; intros [|a l] [|v G] H1 H2 H; try discriminate; [reflexivity|]. cbn [mask_select]. cbn in H1, H2.
  assert (Q : mapM f (mask_select mask l) = Ok (mask_select mask G)) by (apply IH; [lia|lia|]; intros p; exact (H (S p))). destruct b; [|exact Q]. cbn [mapM]. rewrite (H O a v eq_refl eq_refl eq_refl). cbn [bind]. now rewrite Q.
Qed.
Lemma scatter_select {A} mask : forall (G old : list A), length G = length mask -> length old = length mask ->
  (forall p v o, nth_error mask p = Some false -> nth_error G p = Some v -> nth_error old p = Some o -> o = v) -> mask_scatter mask (mask_select mask G) old = G.
Proof.
  induction mask as [|b mask IH]; intros [|v G] [|o old] H1 H2 H; try discriminate; [reflexivity|]. cbn in H1, H2.
  assert (Q : mask_scatter mask (mask_select mask G) old = G) by (apply IH; [lia|lia|]; intros p; exact (H (S p))). destruct b; cbn [mask_select mask_scatter]; rewrite Q; [reflexivity|]. f_equal. exact (H O v o eq_refl eq_refl eq_refl).
Qed.
Lemma select_map {A B} (f : A -> B) mask : forall l, mask_select mask (map f l) = map f (mask_select mask l).
Proof. induction mask as [|b mask IH]; intros [|a l]; try reflexivity. cbn [mask_select map]. destruct b; cbn [map]; now rewrite IH. Qed.
Lemma in_select {A} mask : forall (l : list A) p a, nth_error mask p = Some true -> nth_error l p = Some a -> In a (mask_select mask l).
Proof. induction mask as [|b mask IH]; intros [|x l] [|p] a H1 H2; try discriminate; cbn [mask_select]; [injection H1 as ->; injection H2 as ->; now left|]. destruct b; [right|]; eapply IH; eauto. Qed.
Lemma select_in {A} mask : forall (l : list A) a, In a (mask_select mask l) -> exists p, nth_error mask p = Some true /\ nth_error l p = Some a.
Proof.
  induction mask as [|b mask IH]; intros [|x l] a H; cbn [mask_select] in H; try contradiction.
  destruct b; [destruct H as [->|H]|]; [exists O; auto| |]; destruct (IH _ _ H) as (p & H1 & H2); exists (S p); auto.
Qed.

(** Reading the flattened matrices. *)
Lemma flat_rows {A} cols (ls : list (list A)) : Forall (fun r => length r = cols) ls -> map (fun i => firstn cols (skipn (i * cols) (concat ls))) (seq 0 (length ls)) = ls.
Proof.
  intros H. apply nth_error_ext. intro i. destruct (Nat.lt_ge_cases i (length ls)) as [L|L].
  - rewrite nth_error_map_seq by exact L. cbn [Nat.add]. destruct (nth_error ls i) as [r|] eqn:E; [|apply nth_error_None in E; lia]. f_equal. clear L. revert i E; induction H as [|a ls Ha H IH]; intros [|i] E; try discriminate.
    + injection E as ->. cbn [Nat.mul skipn concat]. rewrite firstn_app, Ha, Nat.sub_diag. cbn [firstn]. rewrite app_nil_r, <- Ha. apply firstn_all.
    + cbn [concat nth_error] in *. rewrite skipn_app. rewrite skipn_all2 by lia. replace (S i * cols - length a)%nat with (i * cols)%nat by lia. cbn [app]. now apply IH.
  - rewrite (proj2 (nth_error_None _ _)) by (rewrite map_length, seq_length; exact L). symmetry. now apply nth_error_None.
Qed.
Lemma flat_at {A} cols (ls : list (list A)) i j r : Forall (fun r => length r = cols) ls -> nth_error ls i = Some r -> (j < cols)%nat -> nth_error (concat ls) (i * cols + j) = nth_error r j.
Proof.
  intros H. revert i. induction H as [|a ls Ha H IH]; intros [|i] E L; try discriminate; cbn [concat nth_error] in *.
  - injection E as ->. rewrite nth_error_app1 by lia. reflexivity.
  - rewrite nth_error_app2 by lia. replace (S i * cols + j - length a)%nat with (i * cols + j)%nat by lia. now apply IH.
Qed.
Lemma flat_length {A} cols (ls : list (list A)) : Forall (fun r => length r = cols) ls -> length (concat ls) = (length ls * cols)%nat.
Proof. intro H. induction H as [|a ls Ha H IH]; [reflexivity|]. cbn [concat length]. rewrite app_length, IH, Ha. lia. Qed.
Lemma flat_position {A} cols (ls : list (list A)) p a : Forall (fun r => length r = cols) ls -> nth_error (concat ls) p = Some a ->
  exists i j r, p = (i * cols + j)%nat /\ (j < cols)%nat /\ nth_error ls i = Some r /\ nth_error r j = Some a.
Proof.
  intros H E. assert (L : (p < length ls * cols)%nat) by (rewrite <- (flat_length cols ls H); apply nth_error_Some; congruence). assert (0 < cols)%nat by (destruct cols; lia).
  pose proof (Nat.div_mod p cols ltac:(lia)) as D. pose proof (Nat.mod_upper_bound p cols ltac:(lia)) as M. assert (Li : (p / cols < length ls)%nat) by (apply Nat.div_lt_upper_bound; lia).
  destruct (nth_error ls (p / cols)) as [r|] eqn:Er; [|apply nth_error_None in Er; lia]. exists (p / cols)%nat, (p mod cols)%nat, r. split; [lia|]. split; [exact M|]. split; [exact Er|].
  rewrite <- E. symmetry. replace p with (p / cols * cols + p mod cols)%nat at 1 by lia. now apply flat_at.
Qed.
Lemma flat_repeat {A} cols (w : list A) bs i j : length w = cols -> (i < bs)%nat -> (j < cols)%nat -> nth_error (concat (repeat w bs)) (i * cols + j) = nth_error w j.
Proof. intros H1 H2 H3. apply flat_at; [|now apply nth_error_repeat_lt|exact H3]. apply Forall_forall. intros r Hr. apply repeat_spec in Hr. now subst. Qed.
Lemma nth_error_where {A} mask (yes no : list A) p : nth_error (where_ mask yes no) p =
  match nth_error mask p, nth_error yes p, nth_error no p with Some b, Some y, Some n => Some (if b then y else n) | _, _, _ => None end.
Proof.
  unfold where_. rewrite nth_error_zip_with. destruct (nth_error mask p) as [b|]; [|reflexivity].
  assert (E : nth_error (combine yes no) p = match nth_error yes p, nth_error no p with Some y, Some n => Some (y, n) | _, _ => None end).
  { clear. revert yes no; induction p as [|p IH]; intros [|y yes] [|n no]; try reflexivity; cbn [combine nth_error]; [now destruct (nth_error yes p)|apply IH]. }
  rewrite E. destruct (nth_error yes p), (nth_error no p); reflexivity.
Qed.
Lemma nth_error_comb {A B} (a : list A) (b : list B) p : nth_error (combine a b) p = match nth_error a p, nth_error b p with Some y, Some n => Some (y, n) | _, _ => None end.
Proof. revert a b; induction p as [|p IH]; intros [|y a] [|n b]; try reflexivity; cbn [combine nth_error]; [now destruct (nth_error a p)|apply IH]. Qed.
Lemma where_length {A} mask (yes no : list A) : length yes = length mask -> length no = length mask -> length (where_ mask yes no) = length mask.
Proof. intros. unfold where_. rewrite zip_with_length, combine_length. lia. Qed.

Lemma sizes_fit s : bins_fit s -> (if Rlt_dec 1 (rq_min_w s * INR (rq_bins s)) then true else if Rlt_dec 1 (rq_min_h s * INR (rq_bins s)) then true else false) = false.
Proof. intros [H1 H2]. destruct (Rlt_dec 1 (rq_min_w s * INR (rq_bins s))); [lra|]. destruct (Rlt_dec 1 (rq_min_h s * INR (rq_bins s))); [lra|reflexivity]. Qed.

Section forward.
Variables (m : splines) (inverse : bool) (cols : nat) (inputs : list (list (option R))).
Let s := sv_spline m.
Let lb := if inverse then rq_lo_out s else rq_lo s.
Let ub := if inverse then rq_hi_out s else rq_hi s.
Let low := fun x => (if inverse then rq_lo s else rq_lo_out s) + (if inverse then (x - lb) / rq_slope s else (x - lb) * rq_slope s).
Let up := fun x => (if inverse then rq_hi s else rq_hi_out s) + (if inverse then (x - ub) / rq_slope s else (x - ub) * rq_slope s).
Let xs := concat inputs.
Let below := map (below_c lb) xs.
Let above := map (above_c ub) xs.
Let inside := zip_with (fun a b => negb (a || b)) below above.
Let zeros := map (fun _ : option R => Some 0) xs.
Let outputs := where_ above (map (option_map up) xs) (where_ below (map (option_map low) xs) zeros).
Let logdet := where_ (map negb inside) zeros zeros.
Hypothesis HR : Forall (fun row => length row = cols) inputs.

Lemma rq_transform_cases w h d x : rq_transform (with_rows s w h d) inverse x =
  if Rlt_dec ub x then Ok (up x, 0) else if Rlt_dec x lb then Ok (low x, 0) else rq_inside (with_rows s w h d) inverse x.
Proof. unfold rq_transform, up, low, ub, lb. destruct inverse; cbn [rq_lo_out rq_hi_out rq_lo rq_hi rq_slope with_rows]; reflexivity. Qed.

Lemma forward_unfold : splines_forward m inverse cols inputs =
  let rows (l : list (option R)) := map (fun i => firstn cols (skipn (i * cols) l)) (seq 0 (length inputs)) in
  if existsb (fun b => b) inside then
    if (length (sv_w m) =? cols)%nat then
      bind (rq_selected s inverse (mask_select inside xs) (mask_select inside (concat (repeat (sv_w m) (length inputs))))
              (mask_select inside (concat (repeat (sv_h m) (length inputs)))) (mask_select inside (concat (repeat (sv_d m) (length inputs))))) (fun vs =>
      Ok (rows (mask_scatter inside (map (fun v => Some (fst v)) vs) outputs), rows (mask_scatter inside (map (fun v => Some (snd v)) vs) logdet)))
    else Err IndexError
  else Ok (rows outputs, rows logdet).
Proof. unfold splines_forward, outputs, logdet, low, up, zeros, inside, below, above, xs, lb, ub, s. destruct inverse; reflexivity. Qed.

Lemma inside_length : length inside = length xs.
Proof. unfold inside, below, above. rewrite zip_with_length, !map_length. lia. Qed.
Lemma inside_at p x : nth_error xs p = Some x -> nth_error inside p = Some (negb (below_c lb x || above_c ub x)).
Proof. intro H. unfold inside, below, above. rewrite nth_error_zip_with, !nth_error_map, H. reflexivity. Qed.
Lemma outputs_length : length outputs = length xs.
Proof. unfold outputs. rewrite where_length; unfold above, below, zeros; rewrite ?where_length; rewrite ?map_length; reflexivity. Qed.
Lemma logdet_length : length logdet = length xs.
Proof. unfold logdet. rewrite where_length; unfold zeros; rewrite ?map_length, ?inside_length; reflexivity. Qed.
Lemma outputs_at p x : nth_error xs p = Some (Some x) -> nth_error outputs p = Some (if Rlt_dec ub x then Some (up x) else if Rlt_dec x lb then Some (low x) else Some 0).
Proof.
  intro H. unfold outputs, above, below, zeros. rewrite !nth_error_where, !nth_error_map, H. cbn [option_map below_c above_c].
  destruct (Rlt_dec ub x), (Rlt_dec x lb); reflexivity.
Qed.
Lemma logdet_at p x : nth_error xs p = Some x -> nth_error logdet p = Some (Some 0).
Proof. intro H. unfold logdet, zeros. rewrite nth_error_where, !nth_error_map, H, (inside_at p x H). cbn [option_map]. now destruct (negb _). Qed.

Section shape.
Hypothesis HV : variables m cols.
Let W := concat (repeat (sv_w m) (length inputs)).
Let H_ := concat (repeat (sv_h m) (length inputs)).
Let D_ := concat (repeat (sv_d m) (length inputs)).
Lemma flat_params_length {A} (w : list A) : length w = cols -> length (concat (repeat w (length inputs))) = length xs.
Proof.
  intro E. unfold xs. rewrite (flat_length cols inputs HR). rewrite (flat_length cols) by (apply Forall_forall; intros r Hr; apply repeat_spec in Hr; now subst). now rewrite repeat_length.
Qed.
Lemma selected_list : combine (mask_select inside xs) (combine (mask_select inside W) (combine (mask_select inside H_) (mask_select inside D_))) = mask_select inside (combine xs (combine W (combine H_ D_))).
Proof.
  destruct HV as (V1 & V2 & V3). pose proof inside_length as IL. assert (LW : length W = length inside) by (rewrite IL; now apply flat_params_length). assert (LH : length H_ = length inside) by (rewrite IL; now apply flat_params_length). assert (LD : length D_ = length inside) by (rewrite IL; now apply flat_params_length).
  rewrite (select_combine_len inside H_ D_) by assumption. rewrite select_combine_len by (rewrite ?combine_length; lia). rewrite select_combine_len by (rewrite ?combine_length; lia). reflexivity.
Qed.
Lemma selected_at i j row x : nth_error inputs i = Some row -> nth_error row j = Some x -> (j < cols)%nat ->
  nth_error (combine xs (combine W (combine H_ D_))) (i * cols + j) = Some (x, (nth j (sv_w m) [], (nth j (sv_h m) [], nth j (sv_d m) []))).
Proof.
  intros Hi Hj Lj. destruct HV as (V1 & V2 & V3). assert (Li : (i < length inputs)%nat) by (apply nth_error_Some; congruence).
  rewrite !nth_error_comb. unfold xs, W, H_, D_. rewrite (flat_at cols inputs i j row HR Hi Lj), Hj. rewrite !flat_repeat by assumption. rewrite !(nth_error_nth_lt _ _ []) by lia. reflexivity.
Qed.

Variable vals : list (list (R * R)).
Hypothesis HB : bins_fit s.
Hypothesis HL : Forall2 (fun row vrow => length vrow = cols /\ forall j v, nth_error vrow j = Some v -> exists x, nth_error row j = Some (Some x) /\ rq_transform (variable m j) inverse x = Ok v) inputs vals.
Lemma vals_rows : Forall (fun r => length r = cols) vals.
Proof. clear - HL. induction HL as [|r v rs vs [L Hr] HL' IH]; constructor; [exact L|exact (IH HL')]. Qed.
Lemma vals_count : length vals = length inputs.
Proof. clear - HL. induction HL as [|r v rs vs Hr HL' IH]; [reflexivity|]. cbn [length]. f_equal. exact (IH HL'). Qed.
Lemma vals_at i row vrow : nth_error inputs i = Some row -> nth_error vals i = Some vrow -> forall j v, nth_error vrow j = Some v -> exists x, nth_error row j = Some (Some x) /\ rq_transform (variable m j) inverse x = Ok v.
Proof. clear - HL. revert i; induction HL as [|r v rs vs (L & Hr) HL' IH]; intros [|i] H1 H2; try discriminate; [injection H1 as <-; injection H2 as <-; exact Hr|]. cbn [nth_error] in *. now apply (IH HL' i). Qed.
Lemma flat_vals_length : length (concat vals) = length xs.
Proof. unfold xs. now rewrite (flat_length cols vals vals_rows), (flat_length cols inputs HR), vals_count. Qed.
Lemma flat_val p v : nth_error (concat vals) p = Some v -> exists i j row x, p = (i * cols + j)%nat /\ (j < cols)%nat /\ nth_error inputs i = Some row /\ nth_error row j = Some (Some x) /\ nth_error xs p = Some (Some x) /\ rq_transform (variable m j) inverse x = Ok v.
Proof.
  intro H. destruct (flat_position cols vals p v vals_rows H) as (i & j & vrow & Ep & Lj & Ei & Ej). destruct (nth_error inputs i) as [row|] eqn:Er.
  - destruct (vals_at i row vrow Er Ei j v Ej) as (x & Hx & Hv). exists i, j, row, x. split; [exact Ep|]. split; [exact Lj|]. split; [exact Er|]. split; [exact Hx|]. split; [|exact Hv]. rewrite Ep. unfold xs. now rewrite (flat_at cols inputs i j row HR Er Lj).
  - apply nth_error_None in Er. assert (i < length vals)%nat by (apply nth_error_Some; congruence). rewrite vals_count in *. lia.
Qed.
Lemma outside_values p v o : nth_error inside p = Some false -> nth_error (concat vals) p = Some v -> nth_error outputs p = Some o -> o = Some (fst v) /\ snd v = 0.
Proof.
  intros Hin Hv Ho. destruct (flat_val p v Hv) as (i & j & row & x & _ & _ & _ & _ & Hx & HT). rewrite (outputs_at p x Hx) in Ho. rewrite (inside_at p _ Hx) in Hin. cbn [below_c above_c] in Hin. unfold variable in HT. fold s in HT. rewrite rq_transform_cases in HT.
  destruct (Rlt_dec ub x); [injection HT as <-; injection Ho as <-; now split|]. destruct (Rlt_dec x lb); [injection HT as <-; injection Ho as <-; now split|discriminate].
Qed.
Lemma forward_values : splines_forward m inverse cols inputs = Ok (map (map (fun v => Some (fst v))) vals, map (map (fun v => Some (snd v))) vals).
Proof.
  rewrite forward_unfold. cbv zeta. pose proof flat_vals_length as FL. pose proof inside_length as IL. pose proof outputs_length as OL. pose proof logdet_length as DL.
  assert (E1 : mask_scatter inside (mask_select inside (map (fun v => Some (fst v)) (concat vals))) outputs = map (fun v => Some (fst v)) (concat vals)).
  { apply scatter_select; [rewrite map_length; lia|lia|]. intros p v o Hin Hv Ho. rewrite nth_error_map in Hv. destruct (nth_error (concat vals) p) as [v0|] eqn:E; [|discriminate]. injection Hv as <-. now apply (outside_values p v0 o). }
  assert (E2 : mask_scatter inside (mask_select inside (map (fun v => Some (snd v)) (concat vals))) logdet = map (fun v => Some (snd v)) (concat vals)).
  { apply scatter_select; [rewrite map_length; lia|lia|]. intros p v o Hin Hv Ho. rewrite nth_error_map in Hv. destruct (nth_error (concat vals) p) as [v0|] eqn:E; [|discriminate]. injection Hv as <-.
    destruct (nth_error outputs p) as [o'|] eqn:Eo; [|apply nth_error_None in Eo; assert (p < length (concat vals))%nat by (apply nth_error_Some; congruence); lia].
    destruct (outside_values p v0 o' Hin E Eo) as [_ ->]. destruct (flat_val p v0 E) as (i & j & row & x & _ & _ & _ & _ & Hx & _). rewrite (logdet_at p _ Hx) in Ho. congruence. }
  assert (ER : forall f : R * R -> option R, map (fun i => firstn cols (skipn (i * cols) (map f (concat vals)))) (seq 0 (length inputs)) = map (map f) vals).
  { intro f. rewrite concat_map, <- vals_count, <- (map_length (map f) vals). apply flat_rows. apply Forall_forall. intros r Hr. apply in_map_iff in Hr as (r0 & <- & Hr0). rewrite map_length. pose proof vals_rows as VR. rewrite Forall_forall in VR. now apply VR. }
  destruct (existsb (fun b => b) inside) eqn:EE.
  - destruct HV as (V1 & V2 & V3). rewrite V1, Nat.eqb_refl. unfold rq_selected. rewrite (sizes_fit s HB). change (concat (repeat (sv_w m) (length inputs))) with W. change (concat (repeat (sv_h m) (length inputs))) with H_. change (concat (repeat (sv_d m) (length inputs))) with D_. rewrite selected_list.
    rewrite (mapM_select _ inside _ (concat vals)).
    + cbn [bind]. rewrite <- !select_map, E1, E2, !ER. reflexivity.
    + rewrite !combine_length. unfold W, H_, D_. rewrite !flat_params_length by assumption. lia.
    + lia.
    + intros p a v Hin Ha Hv. destruct (flat_val p v Hv) as (i & j & row & x & Ep & Lj & Hi & Hj & Hx & HT). rewrite Ep, (selected_at i j row (Some x) Hi Hj Lj) in Ha. injection Ha as <-. cbn [fst snd].
      rewrite (inside_at p _ Hx) in Hin. cbn [below_c above_c] in Hin. unfold variable in HT. fold s in HT. rewrite rq_transform_cases in HT. destruct (Rlt_dec ub x); [destruct (Rlt_dec x lb); discriminate|]. destruct (Rlt_dec x lb); [discriminate|]. exact HT.
  - assert (F : forall p b, nth_error inside p = Some b -> b = false).
    { intros p b Hb. destruct b; [|reflexivity]. apply nth_error_In in Hb. assert (existsb (fun b => b) inside = true) by (apply existsb_exists; exists true; auto). congruence. }
    assert (N : forall mask, (forall p b, nth_error mask p = Some b -> b = false) -> forall (vs l : list (option R)), mask_scatter mask vs l = l).
    { clear. induction mask as [|b mask IH]; intros H vs [|x l]; try reflexivity. cbn [mask_scatter]. rewrite (H O b eq_refl). rewrite IH; [reflexivity|]. intros p. exact (H (S p)). }
    rewrite (N inside F) in E1, E2. now rewrite E1, E2, !ER.
Qed.
End shape.
End forward.

(** Columns and rows transformed by their own functions. *)
Lemma forward_cellwise m (inverse : bool) V inputs F L : variables m V -> bins_fit (sv_spline m) -> numbers V inputs ->
  (forall j, (j < V)%nat -> computes (variable m j) inverse (F j) (L j)) -> splines_forward m inverse V inputs = Ok (cellwise F inputs, cellwise L inputs).
Proof.
  intros HV HB HN HC. pose (g := fun j (x : option R) => match x with Some x => (F j x, L j x) | None => (0, 0) end).
  assert (HR : Forall (fun row => length row = V) inputs) by (eapply Forall_impl; [|exact HN]; intros a [H _]; exact H).
  rewrite (forward_values m inverse V inputs HR HV (map (mapi g) inputs) HB).
  - unfold cellwise. f_equal. f_equal; rewrite map_map; apply map_ext_in; intros row Hrow; unfold numbers in HN; rewrite Forall_forall in HN; destruct (HN row Hrow) as [_ HS]; rewrite Forall_forall in HS;
      apply nth_error_ext; intro i; rewrite nth_error_map, !nth_error_mapi; destruct (nth_error row i) as [x|] eqn:E; try reflexivity; cbn [option_map]; apply nth_error_In in E; specialize (HS _ E); destruct x as [x|]; [reflexivity|congruence|reflexivity|congruence].
  - clear HR. induction HN as [|row inputs [Lr HS] HN IH]; [constructor|]. cbn [map]. constructor; [|exact IH]. rewrite mapi_length. split; [exact Lr|]. intros j v Hv. rewrite nth_error_mapi in Hv. destruct (nth_error row j) as [x|] eqn:E; [|discriminate]. rewrite Forall_forall in HS.
    pose proof (HS _ (nth_error_In _ _ E)) as Hx. destruct x as [x|]; [|congruence]. injection Hv as <-. exists x. split; [reflexivity|]. apply HC. rewrite <- Lr. apply nth_error_Some. congruence.
Qed.
Lemma wf_bins_fit m V : (0 < V)%nat -> (forall j, (j < V)%nat -> rqs_wf (variable m j)) -> bins_fit (sv_spline m).
Proof. intros HV W. destruct (W 0%nat HV). unfold bins_fit. cbn in *. tauto. Qed.
Lemma numbers_cellwise V inputs F : numbers V inputs -> numbers V (cellwise F inputs).
Proof.
  intros H. unfold numbers, cellwise in *. rewrite Forall_forall in *. intros r Hr. apply in_map_iff in Hr as (r0 & <- & Hr0). destruct (H r0 Hr0) as [L HS]. split; [now rewrite mapi_length|].
  rewrite Forall_forall in *. intros x Hx. apply In_nth_error in Hx as [i Hi]. rewrite nth_error_mapi in Hi. destruct (nth_error r0 i) as [y|] eqn:E; [|discriminate]. specialize (HS _ (nth_error_In _ _ E)). destruct y; cbn in *; congruence.
Qed.
Lemma cellwise_comp V inputs F G : Forall (fun row => length row = V) inputs -> (forall j x, (j < V)%nat -> G j (F j x) = x) -> cellwise G (cellwise F inputs) = inputs.
Proof.
  intros H E. unfold cellwise. rewrite map_map. rewrite <- (map_id inputs) at 2. apply map_ext_in. intros r Hr. rewrite Forall_forall in H. specialize (H r Hr). apply nth_error_ext. intro i. rewrite !nth_error_mapi.
  destruct (nth_error r i) as [x|] eqn:Ex; [|reflexivity]. cbn [option_map]. destruct x; cbn [option_map]; [|reflexivity]. rewrite E; [reflexivity|]. rewrite <- H. apply nth_error_Some. congruence.
Qed.
Lemma cellwise_choice V (P : nat -> (R -> R) -> (R -> R) -> Prop) : (forall j, (j < V)%nat -> exists F L, P j F L) -> exists F L, forall j, (j < V)%nat -> P j (F j) (L j).
Proof.
  induction V as [|V IH]; intros H; [exists (fun _ x => x), (fun _ x => x); intros; lia|]. destruct IH as (F & L & I); [intros; apply H; lia|]. destruct (H V ltac:(lia)) as (f & l & Hf).
  exists (fun j => if (j =? V)%nat then f else F j), (fun j => if (j =? V)%nat then l else L j). intros j Hj. destruct (Nat.eqb_spec j V) as [->|N]; [exact Hf|apply I; lia].
Qed.

(** Refused inputs. *)
Lemma mapM_refused {A B} (f : A -> result B) e l a : (forall x, In x l -> f x = Err e \/ exists v, f x = Ok v) -> In a l -> f a = Err e -> mapM f l = Err e.
Proof.
  induction l as [|x l IH]; intros H Ha Hf; [contradiction|]. cbn [mapM]. destruct (H x (or_introl eq_refl)) as [E|[v E]]; rewrite E; cbn [bind]; [reflexivity|].
  destruct Ha as [->|Ha]; [congruence|]. rewrite IH; [reflexivity| |exact Ha|exact Hf]. intros y Hy. apply H. now right.
Qed.
Lemma inside_some m (inverse : bool) cols inputs row x : In row inputs -> In x row ->
  match x with Some x => (if inverse then rq_lo_out (sv_spline m) else rq_lo (sv_spline m)) <= x <= (if inverse then rq_hi_out (sv_spline m) else rq_hi (sv_spline m)) | None => True end ->
  Forall (fun row => length row = cols) inputs -> exists p i j,
  nth_error (zip_with (fun a b => negb (a || b)) (map (below_c (if inverse then rq_lo_out (sv_spline m) else rq_lo (sv_spline m))) (concat inputs)) (map (above_c (if inverse then rq_hi_out (sv_spline m) else rq_hi (sv_spline m))) (concat inputs))) p = Some true
  /\ p = (i * cols + j)%nat /\ (j < cols)%nat /\ nth_error inputs i = Some row /\ nth_error row j = Some x.
Proof.
  intros H1 H2 H3 HR. apply In_nth_error in H1 as [i Hi]. apply In_nth_error in H2 as [j Hj].
  assert (Lj : (j < cols)%nat) by (rewrite Forall_forall in HR; rewrite <- (HR row (nth_error_In _ _ Hi)); apply nth_error_Some; congruence).
  exists (i * cols + j)%nat, i, j. repeat split; auto. rewrite nth_error_zip_with, !nth_error_map, (flat_at cols inputs i j row HR Hi Lj), Hj. cbn [option_map]. f_equal. destruct x as [x|]; [|reflexivity]. cbn [below_c above_c].
  destruct (Rlt_dec x _); [lra|]. destruct (Rlt_dec _ x); [lra|reflexivity].
Qed.
Lemma existsb_at l p : nth_error l p = Some true -> existsb (fun b => b) l = true.
Proof. intro H. apply existsb_exists. exists true. split; [exact (nth_error_In _ _ H)|reflexivity]. Qed.
Lemma forward_too_many m (inverse : bool) V inputs : variables m V -> Forall (fun row => length row = V) inputs -> ~ bins_fit (sv_spline m) ->
  some_inside (if inverse then rq_lo_out (sv_spline m) else rq_lo (sv_spline m)) (if inverse then rq_hi_out (sv_spline m) else rq_hi (sv_spline m)) inputs -> splines_forward m inverse V inputs = Err ValueError.
Proof.
  intros (V1 & _) HR HB (row & x & H1 & H2 & H3). destruct (inside_some m inverse V inputs row (Some x) H1 H2 H3 HR) as (p & i & j & Hp & _). rewrite forward_unfold. cbv zeta. rewrite (existsb_at _ _ Hp), V1, Nat.eqb_refl. unfold rq_selected.
  assert (B : 1 < rq_min_w (sv_spline m) * INR (rq_bins (sv_spline m)) \/ 1 < rq_min_h (sv_spline m) * INR (rq_bins (sv_spline m))) by (unfold bins_fit in HB; destruct (Rlt_dec 1 (rq_min_w (sv_spline m) * INR (rq_bins (sv_spline m)))); [now left|right; apply Rnot_le_lt; intro; apply HB; split; lra]).
  destruct (Rlt_dec 1 (rq_min_w (sv_spline m) * INR (rq_bins (sv_spline m)))); [reflexivity|]. destruct (Rlt_dec 1 (rq_min_h (sv_spline m) * INR (rq_bins (sv_spline m)))); [reflexivity|lra].
Qed.
Lemma forward_columns m (inverse : bool) cols inputs row x : Forall (fun row => length row = cols) inputs -> length (sv_w m) <> cols -> In row inputs -> In x row ->
  match x with Some x => (if inverse then rq_lo_out (sv_spline m) else rq_lo (sv_spline m)) <= x <= (if inverse then rq_hi_out (sv_spline m) else rq_hi (sv_spline m)) | None => True end ->
  splines_forward m inverse cols inputs = Err IndexError.
Proof.
  intros HR HV H1 H2 H3. destruct (inside_some m inverse cols inputs row x H1 H2 H3 HR) as (p & i & j & Hp & _). rewrite forward_unfold. cbv zeta. rewrite (existsb_at _ _ Hp). apply Nat.eqb_neq in HV. now rewrite HV.
Qed.
Lemma forward_nan m (inverse : bool) V inputs row : variables m V -> Forall (fun row => length row = V) inputs -> (forall j, (j < V)%nat -> rqs_wf (variable m j)) -> In row inputs -> In None row ->
  splines_forward m inverse V inputs = Err RuntimeError.
Proof.
  intros HV HR HW H1 H2. destruct (inside_some m inverse V inputs row None H1 H2 I HR) as (p & i & j & Hp & Ep & Lj & Hi & Hj). pose proof (wf_bins_fit m V ltac:(lia) HW) as HB.
  rewrite forward_unfold. cbv zeta. rewrite (existsb_at _ _ Hp). destruct HV as (V1 & V2 & V3). rewrite V1, Nat.eqb_refl. unfold rq_selected. rewrite (sizes_fit _ HB), (selected_list m inverse V inputs HR (conj V1 (conj V2 V3))).
  rewrite (mapM_refused _ RuntimeError _ (None, (nth j (sv_w m) [], (nth j (sv_h m) [], nth j (sv_d m) [])))); [reflexivity| | |reflexivity].
  - intros a Ha. apply select_in in Ha as (q & Hq & Ha). rewrite nth_error_comb in Ha. destruct (nth_error (concat inputs) q) as [x|] eqn:Ex; [|discriminate].
    destruct (flat_position V inputs q x HR Ex) as (i' & j' & r' & Eq & Lj' & Hi' & Hj'). pose proof (selected_at m V inputs HR (conj V1 (conj V2 V3)) i' j' r' x Hi' Hj' Lj') as S'. rewrite <- Eq, nth_error_comb, Ex in S'. rewrite S' in Ha. injection Ha as <-. cbn [fst snd].
    destruct x as [x|]; [right|left; reflexivity]. destruct (computes_exists _ inverse (HW j' Lj')) as (F & L & HC). specialize (HC x). unfold variable in HC. rewrite (rq_transform_cases m inverse inputs) in HC.
    rewrite nth_error_zip_with, !nth_error_map, Ex in Hq. cbn [option_map below_c above_c] in Hq. match type of HC with (if ?a then _ else if ?b then _ else _) = _ => destruct a, b end; try discriminate Hq; [eexists; exact HC].
  - apply (in_select _ _ p); [exact Hp|]. rewrite Ep. exact (selected_at m V inputs HR (conj V1 (conj V2 V3)) i j row None Hi Hj Lj).
Qed.

(** The knots are on the curve. *)
Lemma knot_value m k : rqs_wf m -> (k <= rq_bins m)%nat -> Fv m (kx m k) = ky m k.
Proof.
  intros W Hk. destruct k as [|k].
  - rewrite (Fv_lo m W) by lra. ring.
  - assert (L : kx m k < kx m (S k)) by (apply kx_lt; [exact W|lia]). rewrite (Fv_bin m W k) by (try lia; lra). apply (piece_hi (rq_bins m)); try lia; auto using kx_lt, ky_lt.
Qed.

(** The figure. *)
Section plot.
Variables (m : splines) (V : nat).
Hypothesis HV : variables m V.
Hypothesis HW : forall j, (j < V)%nat -> rqs_wf (variable m j).
Lemma constant_rows x : numbers V (map (fun v => repeat (Some v) V) x).
Proof.
  unfold numbers. apply Forall_forall. intros r Hr. apply in_map_iff in Hr as (v & <- & _). split; [apply repeat_length|]. apply Forall_forall. intros y Hy. apply repeat_spec in Hy. subst. discriminate.
Qed.
Lemma forward_some F L inputs : numbers V inputs -> (forall j, (j < V)%nat -> computes (variable m j) false (F j) (L j)) -> splines_forward m false V inputs = Ok (cellwise F inputs, cellwise L inputs).
Proof.
  intros HN HC. destruct V as [|v] eqn:EV.
  - assert (Q : inputs = map (fun _ => []) inputs).
    { clear - HN. induction HN as [|r l [Hr _] _ IH]; [reflexivity|]. cbn [map]. rewrite <- IH. destruct r; [reflexivity|discriminate]. }
    assert (C : concat inputs = []) by (rewrite Q; clear; induction inputs; [reflexivity|assumption]).
    rewrite forward_unfold. cbv zeta. rewrite C. cbn [map zip_with existsb]. unfold cellwise. rewrite Q at 3 4. rewrite !map_map. cbn [mapi]. f_equal.
    assert (Z : forall l : list (list (option R)), map (fun i => firstn 0 (skipn (i * 0) (@nil (option R)))) (seq 0 (length l)) = map (fun _ => []) l).
    { intro l. generalize 0%nat at 3. induction l as [|a l IH]; intro k; [reflexivity|]. cbn [length seq map]. now rewrite IH. }
    f_equal; exact (Z inputs).
  - apply forward_cellwise; auto. apply (wf_bins_fit m (S v)); [lia|]. exact HW.
Qed.
Lemma plot_in_range points idx j F L : norm_index V idx = Some j -> (j < V)%nat -> computes (variable m j) false F L ->
  plot_spline m points idx = Ok (map (fun x => (x, Some (F x))) (linspace (rq_lo (sv_spline m)) (rq_hi (sv_spline m)) points),
    map (fun k => (kx (variable m j) k, ky (variable m j) k)) (seq 0 (S (rq_bins (sv_spline m))))).
Proof.
  intros Hi Hj HC. destruct (cellwise_choice V (fun j F L => computes (variable m j) false F L)) as (FF & LL & HA); [intros; now apply computes_exists, HW|].
  destruct HV as (V1 & V2 & V3). unfold plot_spline. rewrite V1, (forward_some FF LL _ (constant_rows _) HA). cbn [bind fst]. rewrite Hi. f_equal. f_equal.
  - unfold cellwise. rewrite !map_map. generalize (linspace (rq_lo (sv_spline m)) (rq_hi (sv_spline m)) points). intro l. induction l as [|x l IH]; [reflexivity|]. cbn [map combine]. rewrite IH. f_equal. f_equal.
    apply nth_error_nth. rewrite nth_error_mapi, nth_error_repeat_lt by exact Hj. cbn [option_map]. f_equal. f_equal. pose proof (HA j Hj x) as E1. rewrite (HC x) in E1. congruence.
  - pose proof (HW j Hj) as W. destruct W as [Wb Ww Wh Wd _ _ Wmw Wmh _ _]. cbn in Wb, Ww, Wh, Wmw, Wmh.
    rewrite (nth_indep _ [] (fst (cum_params (rq_bins (sv_spline m)) [] (rq_lo (sv_spline m)) (rq_hi (sv_spline m)) (rq_min_w (sv_spline m))))) by (rewrite map_length; lia).
    rewrite (map_nth (fun u => fst (cum_params (rq_bins (sv_spline m)) u (rq_lo (sv_spline m)) (rq_hi (sv_spline m)) (rq_min_w (sv_spline m))))).
    rewrite (nth_indep (map (fun u => fst (cum_params (rq_bins (sv_spline m)) u (rq_lo_out (sv_spline m)) (rq_hi_out (sv_spline m)) (rq_min_h (sv_spline m)))) (sv_h m)) [] (fst (cum_params (rq_bins (sv_spline m)) [] (rq_lo_out (sv_spline m)) (rq_hi_out (sv_spline m)) (rq_min_h (sv_spline m))))) by (rewrite map_length; lia).
    rewrite (map_nth (fun u => fst (cum_params (rq_bins (sv_spline m)) u (rq_lo_out (sv_spline m)) (rq_hi_out (sv_spline m)) (rq_min_h (sv_spline m))))).
    fold (cumk (rq_bins (sv_spline m)) (nth j (sv_w m) []) (rq_lo (sv_spline m)) (rq_hi (sv_spline m)) (rq_min_w (sv_spline m))). fold (cumk (rq_bins (sv_spline m)) (nth j (sv_h m) []) (rq_lo_out (sv_spline m)) (rq_hi_out (sv_spline m)) (rq_min_h (sv_spline m))).
    apply nth_error_ext. intro k. rewrite nth_error_comb. set (a := cumk _ _ _ _ _). set (b := cumk _ _ _ _ _).
    assert (La : length a = S (rq_bins (sv_spline m))) by (apply cumk_length; tauto). assert (Lb : length b = S (rq_bins (sv_spline m))) by (apply cumk_length; tauto).
    destruct (Nat.lt_ge_cases k (S (rq_bins (sv_spline m)))) as [Lk|Lk].
    + rewrite (nth_error_nth_lt a k 0), (nth_error_nth_lt b k 0) by lia. rewrite nth_error_map_seq by exact Lk. cbn [Nat.add]. f_equal. f_equal; [apply nth_cumk|apply nth_cumk]; tauto || lia.
    + rewrite (proj2 (nth_error_None a k)) by lia. symmetry. apply nth_error_None. rewrite map_length, seq_length. lia.
Qed.
Lemma plot_out_of_range points idx : norm_index V idx = None -> plot_spline m points idx = Err IndexError.
Proof.
  intros Hi. destruct (cellwise_choice V (fun j F L => computes (variable m j) false F L)) as (FF & LL & HA); [intros; now apply computes_exists, HW|].
  destruct HV as (V1 & V2 & V3). unfold plot_spline. rewrite V1, (forward_some FF LL _ (constant_rows _) HA). cbn [bind]. now rewrite Hi.
Qed.
End plot.

(** Standardisation. *)
Lemma standardised_rows lv theta : Forall (fun row => length row = lv) (flow_standardised lv theta).
Proof. apply Forall_forall. intros r Hr. apply in_map_iff in Hr as (t & <- & _). now rewrite map_length, seq_length. Qed.
Lemma standardised_nan lv theta d row : (d < lv)%nat -> (length theta = 1%nat \/ exists c, Forall (fun t => nth d t 0 = c) theta) -> In row (flow_standardised lv theta) -> In None row.
Proof.
  intros Hd H Hr. unfold flow_standardised in Hr. apply in_map_iff in Hr as (t & <- & Ht). apply in_map_iff. exists d. split; [|apply in_seq; lia].
  assert (E : column_std (column 0 d theta) = None \/ column_std (column 0 d theta) = Some 0); [|destruct E as [-> | ->]; cbn [div_by]; [reflexivity|]; destruct (Req_EM_T 0 0); [reflexivity|lra]].
  unfold column_std, column. rewrite map_length. destruct (Nat.eqb_spec (length theta) 1) as [|N]; [now left|right]. destruct H as [H|(c & H)]; [contradiction|]. f_equal.
  assert (EC : map (fun r => nth d r 0) theta = repeat c (length theta)).
  { clear - H. induction H as [|a l Ha H IH]; [reflexivity|]. cbn [map length repeat]. now rewrite IH, Ha. }
  rewrite EC. assert (0 < length theta)%nat by (destruct theta; [contradiction|cbn; lia]). assert (0 < INR (length theta)) by now apply lt_0_INR.
  assert (RS : forall n (a : R), rsum (repeat a n) = INR n * a). { induction n as [|n IH]; intro a; [cbn; ring|]. cbn [repeat]. change (rsum (a :: repeat a n)) with (a + rsum (repeat a n)). rewrite IH, S_INR. ring. }
  assert (M : rmean (repeat c (length theta)) = c) by (unfold rmean; rewrite RS, repeat_length; field; lra). rewrite M.
  rewrite map_repeat, RS. replace (c - c) with 0 by ring. replace (INR (length theta) * 0 ^ 2 / (INR (length theta) - 1)) with 0 by (unfold Rdiv; ring). apply sqrt_0.
Qed.
