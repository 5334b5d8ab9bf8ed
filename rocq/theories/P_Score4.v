(** One-hot codes of mean-imputed data: the rounded means. *)
From Coq Require Import QArith Qround Lia String Reals.
From Verif Require Import Base BaseFacts RBase M_Data M_Lik M_Score S_Data S_Score P_Data P_Score1.
Import List.
Local Open Scope nat_scope.

(** Rounding a quotient [s / n]: nearest, ties to even. *)
Lemma qround_quotient : forall q (s n : Z), (0 < n)%Z -> (q * inject_Z n == inject_Z s)%Q ->
  (2 * Z.abs (n * qround q - s) <= n /\ (2 * Z.abs (n * qround q - s) = n -> Z.Even (qround q)))%Z.
Proof.
  intros q s n Hn E. unfold qround. set (f := Qfloor q).
  assert (Hq : (q == inject_Z s / inject_Z n)%Q).
  { rewrite <- E. field. intro H. unfold Qeq in H. cbn in H. lia. }
  assert (H0 : (inject_Z f <= q)%Q) by apply Qfloor_le.
  assert (H1 : (q < inject_Z (f + 1))%Q) by apply Qlt_floor.
  assert (Hp : (0 < inject_Z n)%Q) by (unfold Qlt; cbn; lia).
  assert (A0 : (f * n <= s)%Z).
  { apply (Qmult_le_compat_r _ _ (inject_Z n)) in H0; [|apply Qlt_le_weak; exact Hp].
    rewrite E in H0. rewrite <- inject_Z_mult in H0. rewrite <- Zle_Qle in H0. exact H0. }
  assert (A1 : (s < (f + 1) * n)%Z).
  { apply (Qmult_lt_compat_r _ _ (inject_Z n)) in H1; [|exact Hp].
    rewrite E in H1. rewrite <- inject_Z_mult in H1. rewrite <- Zlt_Qlt in H1. exact H1. }
  assert (D : ((q - inject_Z f) * inject_Z (2 * n) == inject_Z (2 * (s - f * n)))%Q).
  { rewrite !inject_Z_mult. unfold Z.sub. rewrite inject_Z_plus, inject_Z_opp, inject_Z_mult, <- E. ring. }
  assert (Hh : ((1 # 2) * inject_Z (2 * n) == inject_Z n)%Q).
  { rewrite inject_Z_mult. change (inject_Z 2) with (2#1)%Q. field. }
  assert (Hp2 : (0 < inject_Z (2 * n))%Q) by (change 0%Q with (inject_Z 0); rewrite <- Zlt_Qlt; lia).
  destruct (Qcompare_spec (q - inject_Z f) (1 # 2)) as [C|C|C].
  - assert (H2 : (2 * (s - f * n) = n)%Z).
    { apply inject_Z_injective. rewrite <- D, C. exact Hh. }
    destruct (Z.even f) eqn:Ev.
    + split; [lia|]. intros _. apply Z.even_spec. exact Ev.
    + split; [lia|]. intros _. apply Z.even_spec. rewrite Z.even_add, Ev. reflexivity.
  - assert (H2 : (2 * (s - f * n) < n)%Z).
    { apply (Qmult_lt_compat_r _ _ (inject_Z (2 * n))) in C; [|exact Hp2]. rewrite D, Hh in C. rewrite <- Zlt_Qlt in C. exact C. }
    split; lia.
  - assert (H2 : (n < 2 * (s - f * n))%Z).
    { apply (Qmult_lt_compat_r _ _ (inject_Z (2 * n))) in C; [|exact Hp2]. rewrite D, Hh in C. rewrite <- Zlt_Qlt in C. exact C. }
    split; lia.
Qed.

Lemma obs_bounds : forall K l, (forall x, In x l -> Missing x \/ exists z, x = Some z /\ (0 <= z < Z.of_nat K)%Z) ->
  (0 <= obs_sum l /\ (obs_sum l <= (Z.of_nat K - 1) * Z.of_nat (obs_count l)))%Z.
Proof.
  intros K l. induction l as [|[z|] l IH]; intros H; cbn [obs_sum obs_count]; [lia| |apply IH; intros; apply H; right; assumption].
  assert (IH' : (0 <= obs_sum l /\ (obs_sum l <= (Z.of_nat K - 1) * Z.of_nat (obs_count l)))%Z)
    by (apply IH; intros; apply H; right; assumption).
  destruct (Z.eqb_spec z (-1)) as [->|Hz]; [exact IH'|].
  destruct (H (Some z) (or_introl eq_refl)) as [[M|M]|(z' & E & B)]; [discriminate M|congruence|].
  assert (z' = z) by congruence. subst z'. nia.
Qed.

Theorem mean_codes : forall draw cats d,
  rectangular d -> m_cols d = length cats -> cats <> [] -> legal cats d ->
  exists enc filled, fst (score_input draw true (Some IMean) cats d) = Ok (as_floats enc) /\
    Forall2 (is_one_hot cats) filled enc /\ same_shape (m_rows d) filled /\
    forall r c x, at_ (m_rows d) r c = Some x ->
      exists y, at_ filled r c = Some y /\
        ((~ Missing x /\ y = x) \/
         (Missing x /\ obs_count (col_cells d c) = 0 /\ y = None) \/
         (Missing x /\ 0 < obs_count (col_cells d c) /\
          exists z, y = Some z /\ nearest_mean (obs_sum (col_cells d c)) (Z.of_nat (obs_count (col_cells d c))) z)).
Proof.
  intros draw cats d Hr Hc Hne Hl.
  rewrite (input_as_training draw draw true (Some IMean) None cats d) by auto.
  destruct (impute_mean_spec draw d None (Some (map Z.of_nat cats)) Hr) as (x & E & F). unfold train_input. rewrite E. cbn [bind fst].
  destruct F as [[FL FS] FC]. set (filled := map (map (option_map qround)) x).
  assert (Cell : forall r c x0, at_ (m_rows d) r c = Some x0 ->
      exists y, at_ filled r c = Some y /\
        ((~ Missing x0 /\ y = x0) \/
         (Missing x0 /\ obs_count (col_cells d c) = 0 /\ y = None) \/
         (Missing x0 /\ 0 < obs_count (col_cells d c) /\
          exists z, y = Some z /\ nearest_mean (obs_sum (col_cells d c)) (Z.of_nat (obs_count (col_cells d c))) z))).
  { intros r c x0 H. destruct (FC r c x0 H) as (y & Hy & Cy).
    exists (option_map qround y). split.
    { unfold filled, at_ in *. rewrite nth_error_map. destruct (nth_error x r) as [row|]; [|discriminate Hy]. cbn [option_map].
      rewrite nth_error_map, Hy. reflexivity. }
    destruct Cy as [[M ->]|[M [[Z0 ->]|[Z0 (q & -> & Eq)]]]].
    - left. split; [exact M|]. destruct x0 as [z|]; [|reflexivity]. cbn [option_map]. rewrite qround_Z. reflexivity.
    - right. left. auto.
    - right. right. split; [exact M|]. split; [exact Z0|]. exists (qround q). split; [reflexivity|].
      apply qround_quotient; [lia|exact Eq]. }
  assert (Sh : same_shape (m_rows d) filled).
  { split; [unfold filled; rewrite map_length; exact FL|]. intros r row row' H1 H2. unfold filled in H2. rewrite nth_error_map in H2.
    destruct (nth_error x r) as [row2|] eqn:E2; [|discriminate H2]. cbn [option_map] in H2. assert (row' = map (option_map qround) row2) by congruence.
    subst row'. rewrite map_length. exact (FS r row row2 H1 E2). }
  assert (Rec : rectangular (Mat 2 (m_cols d) filled)).
  { split; [reflexivity|]. cbn [m_rows m_cols]. apply Forall_forall. intros row' H. apply In_nth_error in H. destruct H as (r & H).
    destruct (nth_error (m_rows d) r) as [row|] eqn:E1.
    - destruct Sh as [_ Sh]. rewrite <- (Sh r row row' E1 H). destruct Hr as [_ Hr]. rewrite Forall_forall in Hr. apply Hr. eapply nth_error_In. exact E1.
    - apply nth_error_None in E1. destruct Sh as [Sh _]. rewrite Sh in E1. apply nth_error_None in E1. congruence. }
  assert (Leg : legal cats (Mat 2 (m_cols d) filled)).
  { intros row' i K y H HK Hy. cbn [m_rows] in H. apply In_nth_error in H. destruct H as (r & H).
    destruct (nth_error (m_rows d) r) as [row|] eqn:E1; [|apply nth_error_None in E1; destruct Sh as [Sh _]; rewrite Sh in E1; apply nth_error_None in E1; congruence].
    assert (Li : i < length row).
    { destruct Sh as [_ Sh]. rewrite (Sh r row row' E1 H). apply nth_error_Some. congruence. }
    destruct (nth_error row i) as [x0|] eqn:Ex; [|apply nth_error_None in Ex; lia].
    assert (Hx0 : at_ (m_rows d) r i = Some x0) by (unfold at_; rewrite E1; exact Ex).
    destruct (Cell r i x0 Hx0) as (y' & Hy' & Cy). unfold at_ in Hy'. rewrite H in Hy'. assert (y' = y) by congruence. subst y'.
    destruct Cy as [[M ->]|[[M [Z0 ->]]|[M [Z0 (z & -> & [N _])]]]].
    - exact (Hl row i K x0 (nth_error_In _ _ E1) HK Ex).
    - left. left. reflexivity.
    - right. exists z. split; [reflexivity|].
      assert (B := obs_bounds K (col_cells d i)). destruct B as [B0 B1].
      { intros x1 Hx1. unfold col_cells in Hx1. apply in_map_iff in Hx1. destruct Hx1 as (row1 & Q & Hrow1).
        destruct (nth_error row1 i) as [x2|] eqn:E4; [|left; left; symmetry; exact Q]. subst x2. exact (Hl row1 i K x1 Hrow1 HK E4). }
      revert N B0 B1. generalize (obs_sum (col_cells d i)). intros s N B0 B1.
      assert (Hn : (0 < Z.of_nat (obs_count (col_cells d i)))%Z) by lia. revert Hn N B1.
      generalize (Z.of_nat (obs_count (col_cells d i))). intros n Hn N B1. split.
      + destruct (Z_lt_le_dec z 0) as [L|L]; [|exact L]. assert (n * z <= - n)%Z by nia. lia.
      + destruct (Z_lt_le_dec z (Z.of_nat K)) as [L|L]; [exact L|]. assert (n * z >= n * Z.of_nat K)%Z by nia. nia. }
  destruct (one_hot_correct (Mat 2 (m_cols d) filled) cats Rec Hc Hne Leg) as (enc & Ee & Fe).
  exists enc, filled. split; [|split; [exact Fe|split; [exact Sh|exact Cell]]].
  unfold one_hot_imputed. destruct Hr as [Hd _]. rewrite Hd. fold filled. rewrite Ee. reflexivity.
Qed.
