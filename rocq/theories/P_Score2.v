(** The request as a whole. *)
From Coq Require Import QArith Lia String Reals.
From Verif Require Import Base BaseFacts RBase M_Data M_Lik M_Stat M_Score S_Data S_Score P_Data P_Score1.
Import List.
Local Open Scope nat_scope.

Lemma str_in_spec : forall s l, str_in s l = true <-> In s l.
Proof.
  intros s l. unfold str_in. rewrite existsb_exists. split.
  - intros (x & H & E). apply String.eqb_eq in E. subst. exact H.
  - intros H. exists s. split; [exact H | apply String.eqb_refl].
Qed.

Definition allowed (a : algorithm) (se : bool) (m : string) : bool :=
  str_in m estimation_methods && negb (se && negb (str_in m ["ML"; "NN"]%string)) && negb (negb (al_encoder a) && String.eqb m "NN").

Lemma allowed_spec : forall a se m, allowed a se m = true <-> permitted (al_encoder a) se m.
Proof.
  intros a se m. unfold allowed, permitted. rewrite !andb_true_iff, !negb_true_iff.
  rewrite (str_in_spec m estimation_methods). unfold estimation_methods. split.
  - intros [[H1 H2] H3]. split; [exact H1|]. split.
    + intros ->. cbn [andb] in H2. apply negb_false_iff in H2. apply str_in_spec in H2. destruct H2 as [H|[H|[]]]; auto.
    + intros ->. rewrite String.eqb_refl, andb_true_r in H3. apply negb_false_iff in H3. exact H3.
  - intros (H1 & H2 & H3). split; [split; [exact H1|]|].
    + destruct se; [|reflexivity]. cbn [andb]. apply negb_false_iff, str_in_spec. destruct (H2 eq_refl) as [->| ->]; cbn; auto.
    + destruct (String.eqb_spec m "NN"); [rewrite (H3 e)|]; [reflexivity | apply andb_false_r].
Qed.

(** What follows the checks. *)
Definition after_checks (draw : nat -> nat -> nat -> nat) (e : engine) (a : algorithm) (data : mat) (method : string) : result (thetas * list (list qcell)) * mat :=
      if String.eqb method "EAP" then (rmap (fun t => (t, [])) (e_eap e data), data)
      else
        let '(start, data') :=
          match al_one_hot a with
          | Some one_hot =>
              let '(inp, data') := score_input draw one_hot (al_imputation a) (e_cats e) data in
              (bind inp (fun x => rmap (fun t => (t, x)) (e_encode e x)), data')
          | None => (Ok (if al_scores a then e_start e data else map (fun _ => repeat (Some 0%R) (e_lv e)) (m_rows data), []), data)
          end in
        (bind start (fun tx =>
           if str_in method ["ML"; "MAP"]%string then rmap (fun t => (t, snd tx)) (e_ml e (String.eqb method "MAP") data' (fst tx))
           else Ok tx), data').
Definition finish (e : engine) (a : algorithm) (se : bool) (method : string) (rescale : bool) (tx : thetas * list (list qcell)) : result (thetas * option errors) :=
      let '(theta, x) := tx in
      bind (if rescale && e_scaled e then e_transform e theta else Ok theta) (fun return_theta =>
      if se then
        if al_mean_se a && String.eqb method "NN" then
          bind (e_mean_se e x) (fun ms =>
            bind (if rescale && e_scaled e
                  then rmap (fun J => zip_with delta_se J (snd ms)) (e_jacobian e (fst ms))
                  else Ok (snd ms)) (fun s => Ok (return_theta, Some (map (map (option_map Fin)) s))))
        else rmap (fun Is => (return_theta, Some (map (fun I => map info_se (diagonal I)) Is))) (e_information e rescale theta)
      else Ok (return_theta, None)).

Lemma latent_scores_eq : forall draw e a ct d se m rs,
  latent_scores draw e a ct d se m rs =
  if allowed a se m
  then (bind (fst (after_checks draw e a (as_rows d) m)) (finish e a se m rs),
        if ct then Mat (m_dim d) (m_cols d) (m_rows (snd (after_checks draw e a (as_rows d) m))) else d)
  else (Err ValueError, d).
Proof.
  intros. unfold latent_scores, allowed. destruct (str_in m estimation_methods); cbn [negb andb]; [|reflexivity].
  destruct (se && negb (str_in m ["ML"; "NN"]%string))%bool; cbn [negb andb]; [reflexivity|].
  destruct (negb (al_encoder a) && (m =? "NN")%string)%bool; cbn [negb]; [reflexivity|].
  fold (after_checks draw e a (as_rows d) m). destruct (after_checks draw e a (as_rows d) m) as [r data']. reflexivity.
Qed.

Theorem refused : forall draw e a ct d se m rs, ~ permitted (al_encoder a) se m -> latent_scores draw e a ct d se m rs = (Err ValueError, d).
Proof.
  intros draw e a ct d se m rs H. rewrite latent_scores_eq. destruct (allowed a se m) eqn:E; [|reflexivity].
  apply allowed_spec in E. contradiction.
Qed.

Lemma map_const_repeat : forall {A B} (b : B) (l : list A), map (fun _ => b) l = repeat b (length l).
Proof. intros. induction l; cbn; [|rewrite IHl]; reflexivity. Qed.

Lemma after_estimated : forall draw e a d m t x, estimated draw e a d m t x -> fst (after_checks draw e a d m) = Ok (t, x).
Proof.
  intros draw e a d m t x [(-> & -> & E) | (s & d' & S & M)]; unfold after_checks.
  - cbn [String.eqb]. rewrite E. reflexivity.
  - assert (NE : (m =? "EAP")%string = false) by (destruct M as [(-> & _) | [(-> & _) | (-> & _)]]; reflexivity).
    rewrite NE. unfold starts in S.
    assert (Hx : match al_one_hot a with
          | Some one_hot =>
              let '(inp, data') := score_input draw one_hot (al_imputation a) (e_cats e) d in
              (bind inp (fun x => rmap (fun t => (t, x)) (e_encode e x)), data')
          | None => (Ok (if al_scores a then e_start e d else map (fun _ => repeat (Some 0%R) (e_lv e)) (m_rows d), []), d)
          end = (Ok (s, x), d')).
    { destruct (al_one_hot a) as [oh|].
      - destruct S as [S1 S2]. rewrite S1. cbn. rewrite S2. reflexivity.
      - destruct S as (-> & -> & ->). rewrite map_const_repeat. reflexivity. }
    rewrite Hx. cbn [fst snd bind]. destruct M as [(-> & ->) | [(-> & E) | (-> & E)]]; cbn; [reflexivity | rewrite E; reflexivity | rewrite E; reflexivity].
Qed.

Theorem answered : forall draw e a ct d se m rs t x u, permitted (al_encoder a) se m -> estimated draw e a (as_rows d) m t x -> on_scale e rs t u ->
  (se = false -> fst (latent_scores draw e a ct d se m rs) = Ok (u, None)) /\
  (se = true -> m = "ML"%string \/ al_mean_se a = false -> forall Is, e_information e rs t = Ok Is ->
     fst (latent_scores draw e a ct d se m rs) = Ok (u, Some (map (fun I => map info_se (diagonal I)) Is))) /\
  (se = true -> m = "NN"%string -> al_mean_se a = true -> forall mu s, e_mean_se e x = Ok (mu, s) ->
     (rs && e_scaled e = false -> fst (latent_scores draw e a ct d se m rs) = Ok (u, Some (map (map (option_map Fin)) s))) /\
     (rs && e_scaled e = true -> forall J, e_jacobian e mu = Ok J ->
        fst (latent_scores draw e a ct d se m rs) = Ok (u, Some (map (map (option_map Fin)) (zip_with delta_se J s))))).
Proof.
  intros draw e a ct d se m rs t x u Hp He Ho. rewrite latent_scores_eq. rewrite (proj2 (allowed_spec a se m) Hp). cbn [fst].
  rewrite (after_estimated _ _ _ _ _ _ _ He). cbn [bind]. unfold finish.
  assert (E : (if rs && e_scaled e then e_transform e t else Ok t) = Ok u).
  { unfold on_scale in Ho. destruct (rs && e_scaled e); [exact Ho | congruence]. }
  rewrite E. cbn [bind]. split; [intros ->; reflexivity|]. split.
  - intros -> Hm Is Hdg. assert (F : al_mean_se a && (m =? "NN")%string = false).
    { destruct Hm as [-> | ->]; [apply andb_false_r | reflexivity]. }
    rewrite F, Hdg. reflexivity.
  - intros -> -> Hs mu s Hms. rewrite Hs. cbn [andb String.eqb Ascii.eqb Bool.eqb]. rewrite Hms. cbn [bind fst snd]. split.
    + intros ->. reflexivity.
    + intros -> J HJ. rewrite HJ. reflexivity.
Qed.

(** An encoder input which cannot be built ends the request. *)
Theorem input_error : forall draw e a ct d se m rs oh x d', permitted (al_encoder a) se m -> m <> "EAP"%string ->
  al_one_hot a = Some oh -> score_input draw oh (al_imputation a) (e_cats e) (as_rows d) = (Err x, d') ->
  fst (latent_scores draw e a ct d se m rs) = Err x.
Proof.
  intros draw e a ct d se m rs oh x d' Hp Hm Ho Hi. rewrite latent_scores_eq, (proj2 (allowed_spec a se m) Hp). cbn [fst].
  unfold after_checks. rewrite (proj2 (String.eqb_neq m "EAP") Hm), Ho, Hi. reflexivity.
Qed.

(** ** The caller's tensor *)
Lemma score_input_data : forall draw oh m cats d,
  snd (score_input draw oh m cats d) = if oh then match m with Some _ => d | None => snd (one_hot_encode d cats) end else d.
Proof.
  intros draw oh m cats d. destruct (any_missing d) eqn:E.
  - unfold score_input. rewrite E. destruct m as [m|], oh; try reflexivity. destruct (one_hot_encode d cats). reflexivity.
  - apply any_missing_false in E. rewrite (input_complete draw oh m cats d E). cbn [snd]. destruct oh; [|reflexivity].
    destruct m; [reflexivity|]. symmetry. apply one_hot_caller. right. right. intros row c Hr Hc ->. apply (E row None Hr Hc). left. reflexivity.
Qed.

Lemma after_data : forall draw e a d m, snd (after_checks draw e a d m) =
  if String.eqb m "EAP" then d
  else match al_one_hot a with
       | Some true => match al_imputation a with Some _ => d | None => snd (one_hot_encode d (e_cats e)) end
       | _ => d
       end.
Proof.
  intros draw e a d m. unfold after_checks. destruct (String.eqb m "EAP"); [reflexivity|].
  destruct (al_one_hot a) as [oh|]; [|reflexivity]. pose proof (score_input_data draw oh (al_imputation a) (e_cats e) d) as H.
  destruct (score_input draw oh (al_imputation a) (e_cats e) d) as [i d']. cbn in *. rewrite H. destruct oh; reflexivity.
Qed.

Definition overwrites (e : engine) (a : algorithm) (ct : bool) (d : mat) (se : bool) (m : string) : Prop :=
  ct = true /\ permitted (al_encoder a) se m /\ m <> "EAP"%string /\ al_one_hot a = Some true /\ al_imputation a = None /\
  (m_dim d = 1 \/ m_dim d = 2) /\ m_cols d = length (e_cats e).

Lemma same_mat : forall d, Mat (m_dim d) (m_cols d) (m_rows d) = d.
Proof. intros []. reflexivity. Qed.
Lemma as_rows_rows : forall d, m_rows (as_rows d) = m_rows d.
Proof. intros d. unfold as_rows. destruct (m_dim d =? 1); reflexivity. Qed.
Lemma as_rows_cols : forall d, m_cols (as_rows d) = m_cols d.
Proof. intros d. unfold as_rows. destruct (m_dim d =? 1); reflexivity. Qed.
Lemma as_rows_dim : forall d, m_dim (as_rows d) = 2 <-> m_dim d = 1 \/ m_dim d = 2.
Proof.
  intros d. unfold as_rows. destruct (Nat.eqb_spec (m_dim d) 1).
  - cbn. split; auto.
  - split; [right; assumption|]. intros [H|H]; [contradiction | exact H].
Qed.

Theorem data_after : forall draw e a ct d se m rs,
  (overwrites e a ct d se m -> snd (latent_scores draw e a ct d se m rs) = fill_nan d) /\
  (~ overwrites e a ct d se m -> snd (latent_scores draw e a ct d se m rs) = d).
Proof.
  intros draw e a ct d se m rs. rewrite latent_scores_eq. split.
  - intros (-> & Hp & Hm & H1 & H2 & H3 & H4). rewrite (proj2 (allowed_spec a se m) Hp). cbn [snd]. rewrite after_data.
    rewrite (proj2 (String.eqb_neq m "EAP") Hm), H1, H2. unfold one_hot_encode.
    rewrite (proj2 (as_rows_dim d) H3). cbn [Nat.eqb negb]. rewrite as_rows_cols, H4, Nat.eqb_refl. cbn [negb snd].
    unfold fill_nan. cbn [m_rows]. rewrite as_rows_rows, <- H4. reflexivity.
  - intros H. destruct (allowed a se m) eqn:E; [|reflexivity]. cbn [snd]. destruct ct; [|reflexivity]. rewrite after_data.
    destruct (String.eqb_spec m "EAP") as [|Hm]; [rewrite as_rows_rows; apply same_mat|].
    destruct (al_one_hot a) as [[|]|] eqn:E1; try (rewrite as_rows_rows; apply same_mat).
    destruct (al_imputation a) eqn:E2; [rewrite as_rows_rows; apply same_mat|]. unfold one_hot_encode.
    destruct (Nat.eqb_spec (m_dim (as_rows d)) 2) as [Hd|Hd]; cbn [negb]; [|cbn [snd]; rewrite as_rows_rows; apply same_mat].
    destruct (Nat.eqb_spec (m_cols (as_rows d)) (length (e_cats e))) as [Hc|Hc]; cbn [negb]; [|cbn [snd]; rewrite as_rows_rows; apply same_mat].
    exfalso. apply H. unfold overwrites. rewrite as_rows_cols in Hc. apply allowed_spec in E. apply as_rows_dim in Hd. auto 10.
Qed.
