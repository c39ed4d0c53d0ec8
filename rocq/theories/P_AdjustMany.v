(** C75: PrePostChange and CUPED with several covariates. *)
From Coq Require Import Reals List Bool String Arith Lia Lra.
From Verif Require Import M_Num M_Frame M_Ops M_Leaf M_Adjust M_AdjustMany S_Ops S_Leaf S_Adjust S_AdjustMany L_Fsum L_Frame L_OpsB L_Leaf L_Leaf2 L_Slices L_Adjust L_LeastSq L_AdjustMany P_Adjust.
Import ListNotations.
Open Scope list_scope.
Open Scope R_scope.

(** The regression the theorems ask for exists: there always is a least squares solution. *)
Theorem C75_regression_exists : exists lm, solves lm.
Proof.
  exists (fun p data => ols p (fun i d => fst d i) snd data). intros p data H. now apply ols_fits.
Qed.

Lemma prepost_index lm s conds y covs t fr : prepost_many_adjusted lm s conds y covs t = Some fr -> good_index (List.length s + List.length conds) fr.
  Proof.
    intros H. rewrite (prepost_many_map lm s conds y covs t fr H). destruct (adjusted_index s conds (prepost_cell lm s conds y covs t) t) as [I1 I2].
    split; [exact I1|]. intros q v Hq. apply I2 in Hq. lia.
  Qed.
Lemma cuped_index lm s conds y covs t fr : cuped_many_adjusted lm s conds y covs t = Some fr -> good_index (List.length s + List.length conds) fr.
  Proof.
    intros H. rewrite (cuped_many_map lm s conds y covs t fr H). split.
    - rewrite List.map_map. cbn [fst]. apply cuped_keys_NoDup.
    - intros q v Hq. apply in_map_iff in Hq as [[g c] [E Hq]]. injection E as <- _. apply cuped_keys_len in Hq. cbn [fst snd]. rewrite app_length. lia.
  Qed.

Section C75.
  (** The regression; split_by s, condition_column conds, child y and covariates covs of the table t of the
      child's results (one row per index key); k a split, in whose rows all these columns have numbers. *)
  Variable lm : regression.
  Hypothesis lm_solves : solves lm.
  Variables (s conds : list string) (y : string) (covs : list string) (t : table) (k : list string).
  Hypothesis different : ~ In y covs.
  Hypothesis k_length : List.length k = List.length s.
  Hypothesis y_complete : complete (Col y) (slice s k t).
  Hypothesis x_complete : Forall (fun x => complete (Col x) (slice s k t)) covs.
  Let Y := at_ (Col y).
  Let X (i : nat) := at_ (Col (nth i covs EmptyString)).
  Let p := List.length covs.
  (** the rows of condition c in the split; the covariates minus their means over the split *)
  Let arm c := slice (s ++ conds) (k ++ c) t.
  Let Z (i : nat) (r : drow) := X i r - mean_of (X i) (slice s k t).

  (** PrePost: the adjusted value of an arm is the intercept of a least squares fit of the child on the
      centered covariates.  All such fits have this intercept if the arm determines it, for example if the
      covariates are independent in the arm; then also the coefficients are unique. *)
  Theorem C75_prepost_is_regression : forall fr c, prepost_many_adjusted lm s conds y covs t = Some fr -> arm c <> [] ->
    exists a b, value_at (k ++ c) fr (Fin a) /\ fits p Z Y (arm c) a b /\
      (intercept_determined p Z (arm c) -> forall a' b', fits p Z Y (arm c) a' b' -> a' = a) /\
      (independent p X (arm c) -> intercept_determined p Z (arm c) /\ forall a' b', fits p Z Y (arm c) a' b' -> forall i, (i < p)%nat -> b' i = b i).
  Proof.
    intros fr c Hf Hc. destruct (prepost_many_value lm s conds y covs different t k k_length y_complete x_complete lm_solves fr c Hf Hc) as (a & b & V & F).
    exists a, b. split; [exact V|]. split; [exact F|]. split; [intros HI a' b' F'; exact (fits_intercept p Z Y (arm c) a' b' a b HI F' F)|].
    intros HI. pose proof (independent_shift p X (fun i => mean_of (X i) (slice s k t)) (arm c) HI) as HZ. split; [intros a0 b0 H0; exact (proj1 (HZ a0 b0 H0))|].
    intros a' b' F'. exact (proj2 (fits_unique p Z Y (arm c) a' b' a b HZ F' F)).
  Qed.
  (** The result is that of the model of the class doc, fitted to the baseline and the arm together. *)
  Theorem C75_prepost_interaction_model : forall base incl res c b0 b1 b2 b3,
    List.length c = List.length conds -> List.length base = List.length conds ->
    arm c <> [] -> arm base <> [] -> intercept_determined p Z (arm c) -> intercept_determined p Z (arm base) ->
    best_interaction_model_many p Z Y (arm base) (arm c) b0 b1 b2 b3 -> b0 <> 0 -> incl = true \/ c <> base ->
    prepost_many lm s conds y covs base incl t = Some res -> In (k ++ c, Fin (b1 / b0 * 100)) res.
  Proof.
    intros base incl res c b0 b1 b2 b3 Lc Lb Nc Nb Ic Ib HM H0 Hi HR. unfold prepost_many in HR.
    destruct (prepost_many_adjusted lm s conds y covs t) as [fr|] eqn:Hf; [|discriminate].
    apply interaction_many in HM as [M1 M2].
    destruct (C75_prepost_is_regression fr c Hf Nc) as (a1 & d1 & V1 & _ & U1 & _). pose proof (U1 Ic _ _ M2) as E1.
    destruct (C75_prepost_is_regression fr base Hf Nb) as (a2 & d2 & V2 & _ & U2 & _). pose proof (U2 Ib _ _ M1) as E2. subst a1 a2.
    apply value_at_In in V1, V2.
    replace (b1 / b0 * 100) with (((b0 + b1) / b0 - 1) * 100) by (field; assumption). rewrite <- percent_value by assumption.
    replace (k ++ c) with (k ++ c ++ []) by (now rewrite app_nil_r).
    apply (compare_row _ (List.length s) (List.length conds) base incl fr res Lb (prepost_index lm s conds y covs t fr Hf) HR k c []); auto; rewrite app_nil_r; assumption.
  Qed.
  (** CUPED: the change is the difference of the means of y - (b_0 x_0 + ...), for every least squares fit
      over the whole split: whether or not the fit is unique. *)
  Theorem C75_cuped_change : forall base incl res c a b,
    List.length c = List.length conds -> List.length base = List.length conds ->
    arm c <> [] -> arm base <> [] -> fits p X Y (slice s k t) a b -> incl = true \/ c <> base ->
    cuped_many lm s conds y covs base incl t = Some res ->
    In (k ++ c, Fin ((mean_of Y (arm c) - mean_of Y (arm base)) - fsum p (fun i => b i * (mean_of (X i) (arm c) - mean_of (X i) (arm base))))) res.
  Proof.
    intros base incl res c a b Lc Lb Nc Nb HF Hi HR. unfold cuped_many in HR.
    destruct (cuped_many_adjusted lm s conds y covs t) as [fr|] eqn:Hf; [|discriminate].
    destruct (cuped_many_value lm s conds y covs different t k k_length y_complete x_complete lm_solves fr c Hf Nc) as (a1 & b1 & F1 & V1 & C1).
    assert (V2 : In (k ++ base, cuped_cell lm s conds y covs t k base) fr).
    { rewrite (cuped_many_map lm s conds y covs t fr Hf). apply in_map_iff. exists (k, base). split; [reflexivity|now apply (cuped_key_In s conds y covs)]. }
    rewrite C1 in V1, V2 by assumption. fold Y (arm c) in V1. fold Y (arm base) in V2.
    eapply eq_ind_r with (P := fun z => In (k ++ c, z) res).
    - replace (k ++ c) with (k ++ c ++ []) by (now rewrite app_nil_r).
      apply (compare_row _ (List.length s) (List.length conds) base incl fr res Lb (cuped_index lm s conds y covs t fr Hf) HR k c []); auto; rewrite app_nil_r; eassumption.
    - rewrite xsub_fin. f_equal.
      (* the two fits predict the same *)
      apply (fits_shift p X (fun i => mean_of (X i) (slice s k t))) in F1.
      pose proof (fits_predict _ _ _ _ _ _ _ _ HF F1) as E.
      assert (EA : forall c', arm c' <> [] -> mean_of (prediction p X a b) (arm c') = mean_of (prediction p X (a1 - fsum p (fun i => b1 i * mean_of (X i) (slice s k t))) b1) (arm c')).
      { intros c' Hc'. apply mean_ext. intros r Hr. apply E. unfold arm in Hr. now apply arm_incl in Hr. }
      pose proof (EA c Nc) as E1. pose proof (EA base Nb) as E2. rewrite !mean_prediction in E1, E2 by assumption.
      assert (EZ : forall c', arm c' <> [] -> fsum (List.length covs) (fun i => b1 i * mean_of (L_AdjustMany.Z s covs t k i) (arm c')) = fsum p (fun i => b1 i * mean_of (X i) (arm c')) - fsum p (fun i => b1 i * mean_of (X i) (slice s k t))).
      { intros c' Hc'. rewrite <- fsum_minus. apply fsum_ext. intros i _. rewrite <- Rmult_minus_distr_l. f_equal. exact (mean_shift (X i) (arm c') _ Hc'). }
      rewrite !EZ by assumption.
      rewrite (fsum_ext p (fun i => b i * (mean_of (X i) (arm c) - mean_of (X i) (arm base))) (fun i => b i * mean_of (X i) (arm c) - b i * mean_of (X i) (arm base))) by (intros; ring). rewrite fsum_minus. lra.
  Qed.
  (** What is subtracted reduces the variance of the child: the sum of squares of y - (b_0 x_0 + ...) around
      its mean is at most that of y. *)
  Theorem C75_cuped_variance : forall a b, fits p X Y (slice s k t) a b ->
    let adjusted r := Y r - fsum p (fun i => b i * X i r) in
    cross adjusted adjusted (slice s k t) <= cross Y Y (slice s k t).
  Proof. intros a b H. exact (residual_variance p X Y (slice s k t) a b H). Qed.
End C75.
Print Assumptions C75_prepost_interaction_model.
Print Assumptions C75_cuped_change.

(** Other covariates with the same affine combinations in the split (reordered, rescaled, shifted, with
    redundant ones added or removed) give the same result: always for CUPED ... *)
Theorem C75_cuped_same_span : forall lm lm' s conds y covs covs' t k base incl res res' c v,
  solves lm -> solves lm' -> ~ In y covs -> ~ In y covs' -> List.length k = List.length s ->
  complete (Col y) (slice s k t) -> Forall (fun x => complete (Col x) (slice s k t)) (covs ++ covs') ->
  let X i := at_ (Col (nth i covs EmptyString)) in let X' i := at_ (Col (nth i covs' EmptyString)) in
  combinations (List.length covs') X' (List.length covs) X (slice s k t) ->
  combinations (List.length covs) X (List.length covs') X' (slice s k t) ->
  List.length c = List.length conds -> List.length base = List.length conds ->
  slice (s ++ conds) (k ++ c) t <> [] -> slice (s ++ conds) (k ++ base) t <> [] -> incl = true \/ c <> base ->
  cuped_many lm s conds y covs base incl t = Some res -> cuped_many lm' s conds y covs' base incl t = Some res' ->
  value_at (k ++ c) res v -> value_at (k ++ c) res' v.
Proof.
  intros lm lm' s conds y covs covs' t k base incl res res' c v S1 S2 D1 D2 Lk Cy Cx X X' H1 H2 Lc Lb Nc Nb Hi R1 R2 HV.
  apply Forall_app in Cx as [Cx Cx'].
  assert (Nk : slice s k t <> []) by (intros E; apply Nc; rewrite slice_slice, E by assumption; reflexivity).
  set (ab := ols (List.length covs') X' (at_ (Col y)) (slice s k t)).
  assert (F' : fits (List.length covs') X' (at_ (Col y)) (slice s k t) (fst ab) (snd ab)) by now apply ols_fits.
  destruct (fits_combine _ _ _ _ _ _ _ _ H1 H2 F') as (a & b & F & E).
  pose proof (C75_cuped_change lm S1 s conds y covs t k D1 Lk Cy Cx base incl res c a b Lc Lb Nc Nb F Hi R1) as V1.
  pose proof (C75_cuped_change lm' S2 s conds y covs' t k D2 Lk Cy Cx' base incl res' c _ _ Lc Lb Nc Nb F' Hi R2) as V2.
  assert (G : forall lm covs fr r, cuped_many_adjusted lm s conds y covs t = Some fr -> absolute_change (List.length s) (List.length conds) base incl fr = Some r -> NoDup (List.map fst r)).
  { intros lm0 covs0 fr r Hf Hr. rewrite (compare_index _ _ _ base incl fr r Hr). pose proof (cuped_index lm0 s conds y covs0 t fr Hf) as [I _].
    clear -I. induction (List.map fst fr) as [|q l IH]; [constructor|]. inversion I; subst. cbn [filter]. destruct (_ || _); auto. constructor; auto. intros H. apply filter_In in H. tauto. }
  assert (U : forall r w, NoDup (List.map fst r) -> In (k ++ c, w) r -> value_at (k ++ c) r w).
  { intros r w ND Hw. unfold value_at. induction r as [|[q z] r IH]; [destruct Hw|]. inversion ND; subst. cbn [filter fst]. destruct (list_eq_dec string_dec q (k ++ c)) as [Eq|Nq].
    - subst q. assert (z = w) as ->. { destruct Hw as [Hw|Hw]; [congruence|]. destruct H3. cbn [fst]. apply in_map_iff. exists (k ++ c, w). auto. }
      f_equal. clear -H3. cbn [fst] in H3. induction r as [|[q z] r IH]; [reflexivity|]. cbn [filter fst]. destruct (list_eq_dec string_dec q (k ++ c)) as [Eq|]; [destruct H3; subst; now left|]. apply IH. intros H. apply H3. now right.
    - apply IH; auto. destruct Hw as [Hw|Hw]; [congruence|assumption]. }
  assert (ND1 : NoDup (List.map fst res)).
  { unfold cuped_many in R1. destruct (cuped_many_adjusted lm s conds y covs t) as [fr|] eqn:Ef; [|discriminate]. now apply (G lm covs fr). }
  assert (ND2 : NoDup (List.map fst res')).
  { unfold cuped_many in R2. destruct (cuped_many_adjusted lm' s conds y covs' t) as [fr|] eqn:Ef; [|discriminate]. now apply (G lm' covs' fr). }
  apply U; [exact ND2|].
  pose proof (U _ _ ND1 V1) as W. unfold value_at in W, HV. pose proof (eq_trans (eq_sym W) HV) as EV. assert (v = Fin ((mean_of (at_ (Col y)) (slice (s ++ conds) (k ++ c) t) - mean_of (at_ (Col y)) (slice (s ++ conds) (k ++ base) t)) - fsum (List.length covs) (fun i => b i * (mean_of (X i) (slice (s ++ conds) (k ++ c) t) - mean_of (X i) (slice (s ++ conds) (k ++ base) t))))) as ->.
  { apply (f_equal (List.map snd)) in EV. cbn [List.map snd] in EV. injection EV as EV. symmetry. exact EV. }
  eapply eq_ind_r with (P := fun z => In (k ++ c, Fin z) res'); [exact V2|].
  assert (EA : forall q, slice (s ++ conds) (k ++ q) t <> [] -> mean_of (prediction (List.length covs') X' (fst ab) (snd ab)) (slice (s ++ conds) (k ++ q) t) = mean_of (prediction (List.length covs) X a b) (slice (s ++ conds) (k ++ q) t)).
  { intros q Hq. apply mean_ext. intros r Hr. apply E. now apply arm_incl in Hr. }
  pose proof (EA c Nc) as E1. pose proof (EA base Nb) as E2. rewrite !mean_prediction in E1, E2 by assumption.
  assert (M : forall n (B : nat -> R) (W : nat -> drow -> R) l1 l2, fsum n (fun i => B i * (mean_of (W i) l1 - mean_of (W i) l2)) = fsum n (fun i => B i * mean_of (W i) l1) - fsum n (fun i => B i * mean_of (W i) l2)).
  { intros. rewrite <- fsum_minus. apply fsum_ext. intros; ring. }
  rewrite !M. subst X X'. cbv beta in *. lra.
Qed.
(** ... and for PrePost where the arm determines the intercept. *)
Theorem C75_prepost_same_span : forall lm lm' s conds y covs covs' t k fr fr' c v,
  solves lm -> solves lm' -> ~ In y covs -> ~ In y covs' -> List.length k = List.length s ->
  complete (Col y) (slice s k t) -> Forall (fun x => complete (Col x) (slice s k t)) (covs ++ covs') ->
  let X i := at_ (Col (nth i covs EmptyString)) in let X' i := at_ (Col (nth i covs' EmptyString)) in
  combinations (List.length covs') X' (List.length covs) X (slice s k t) ->
  combinations (List.length covs) X (List.length covs') X' (slice s k t) ->
  slice (s ++ conds) (k ++ c) t <> [] -> intercept_determined (List.length covs) (fun i r => X i r - mean_of (X i) (slice s k t)) (slice (s ++ conds) (k ++ c) t) ->
  prepost_many_adjusted lm s conds y covs t = Some fr -> prepost_many_adjusted lm' s conds y covs' t = Some fr' ->
  value_at (k ++ c) fr v -> value_at (k ++ c) fr' v.
Proof.
  intros lm lm' s conds y covs covs' t k fr fr' c v S1 S2 D1 D2 Lk Cy Cx X X' H1 H2 Nc HI R1 R2 HV.
  apply Forall_app in Cx as [Cx Cx'].
  assert (Nk : slice s k t <> []) by (intros E; apply Nc; rewrite slice_slice, E by assumption; reflexivity).
  destruct (C75_prepost_is_regression lm S1 s conds y covs t k D1 Lk Cy Cx fr c R1 Nc) as (a & b & V1 & F1 & U1 & _).
  destruct (C75_prepost_is_regression lm' S2 s conds y covs' t k D2 Lk Cy Cx' fr' c R2 Nc) as (a' & b' & V2 & F2 & _).
  assert (v = Fin a) as ->.
  { unfold value_at in V1, HV. pose proof (eq_trans (eq_sym HV) V1) as EV. apply (f_equal (List.map snd)) in EV. cbn [List.map snd] in EV. now injection EV. }
  destruct (centered_combination _ _ _ _ _ Nk H1 b') as (b2 & E2).
  assert (F : fits (List.length covs) (fun i r => X i r - mean_of (X i) (slice s k t)) (at_ (Col y)) (slice (s ++ conds) (k ++ c) t) a' b2).
  { intros a3 b3. destruct (centered_combination _ _ _ _ _ Nk H2 b3) as (b4 & E4). specialize (F2 a3 b4).
    rewrite (sum_of_ext _ (fun r => (at_ (Col y) r - prediction (List.length covs) (fun i r => X i r - mean_of (X i) (slice s k t)) a' b2 r) ^ 2)) in F2.
    2:{ intros r Hr. rewrite <- E2; [reflexivity|]. now apply arm_incl in Hr. }
    rewrite (sum_of_ext (fun r => (at_ (Col y) r - prediction (List.length covs') _ a3 b4 r) ^ 2) (fun r => (at_ (Col y) r - prediction (List.length covs) (fun i r => X i r - mean_of (X i) (slice s k t)) a3 b3 r) ^ 2)) in F2; [exact F2|].
    intros r Hr. rewrite E4; [reflexivity|]. now apply arm_incl in Hr. }
  rewrite <- (U1 HI _ _ F). exact V2.
Qed.
Print Assumptions C75_cuped_same_span.
Print Assumptions C75_prepost_same_span.

(** Where an arm does not determine the intercept, the result depends on which least squares solution
    the regression happens to return. *)
Theorem C75_prepost_undetermined : forall lm s conds y covs t k fr c v a0 b0,
  solves lm -> ~ In y covs -> List.length k = List.length s ->
  complete (Col y) (slice s k t) -> Forall (fun x => complete (Col x) (slice s k t)) covs ->
  let X i := at_ (Col (nth i covs EmptyString)) in let Z i r := X i r - mean_of (X i) (slice s k t) in
  slice (s ++ conds) (k ++ c) t <> [] ->
  (forall r, In r (slice (s ++ conds) (k ++ c) t) -> prediction (List.length covs) Z a0 b0 r = 0) -> a0 <> 0 ->
  prepost_many_adjusted lm s conds y covs t = Some fr -> value_at (k ++ c) fr v ->
  exists lm' fr' v', solves lm' /\ prepost_many_adjusted lm' s conds y covs t = Some fr' /\ value_at (k ++ c) fr' v' /\ v' <> v.
Proof.
  intros lm s conds y covs t k fr c v a0 b0 S1 D1 Lk Cy Cx X Z Nc HZ H0 R1 HV.
  pose (null p (data : list ((nat -> R) * R)) := forallb (fun d => if Req_EM_T (prediction p (fun i d => fst d i) a0 b0 d) 0 then true else false) data).
  pose (lm' := (fun p data => if null p data then (fst (lm p data) + a0, fun i => snd (lm p data) i + b0 i) else lm p data) : regression).
  assert (S2 : solves lm').
  { intros p data Hd. unfold lm'. destruct (null p data) eqn:E; [|now apply S1]. cbn [fst snd]. apply fits_null; [now apply S1|].
    intros d Hin. unfold null in E. rewrite forallb_forall in E. specialize (E d Hin). destruct (Req_EM_T _ 0); [assumption|discriminate]. }
  destruct (prepost_many_adjusted lm' s conds y covs t) as [fr'|] eqn:R2.
  2:{ exfalso. apply each_None in R2 as [q [Hq Hf]]. unfold prepost_many_adjusted in R1.
      assert (X1 : each (fun k0 => match fit lm y covs (slice (s ++ conds) k0 (centered_all s covs t)) with Some ab => Some (k0, Fin (fst ab)) | None => None end) (group_keys (s ++ conds) (centered_all s covs t)) = None); [|congruence].
      apply each_None. exists q. split; [exact Hq|]. unfold fit in *. destruct (slice (s ++ conds) q (centered_all s covs t)); [reflexivity|]. destruct (forallb _ _); [discriminate|reflexivity]. }
  exists lm', fr'.
  assert (Key : In (k ++ c) (group_keys (s ++ conds) t)) by now apply arm_key.
  assert (ND : NoDup (group_keys (s ++ conds) t)) by apply keys_NoDup.
  exists (prepost_cell lm' s conds y covs t (k ++ c)). split; [exact S2|]. split; [exact R2|]. split.
  { rewrite (prepost_many_map lm' s conds y covs t fr' R2). now apply value_map. }
  assert (v = prepost_cell lm s conds y covs t (k ++ c)) as ->.
  { rewrite (prepost_many_map lm s conds y covs t fr R1) in HV. pose proof (value_map (prepost_cell lm s conds y covs t) _ _ ND Key) as V. unfold value_at in HV, V. pose proof (eq_trans (eq_sym HV) V) as EV.
    apply (f_equal (List.map snd)) in EV. cbn [List.map snd] in EV. now injection EV. }
  unfold prepost_cell. rewrite (slice_call s covs). set (arm := slice (s ++ conds) (k ++ c) t) in *.
  destruct (fit_value lm s y covs D1 t k Cy Cx S1 arm) as [ab [E _]]; [now apply arm_incl|exact Nc|].
  rewrite E. unfold fit in *. destruct (List.map (ccell s covs t) arm) as [|r0 l] eqn:El; [discriminate|]. rewrite <- El in *.
  destruct (forallb _ (List.map (ccell s covs t) arm)) eqn:EF; [|discriminate]. injection E as <-.
  set (data := List.map _ (List.map (ccell s covs t) arm)).
  assert (EN : null (List.length covs) data = true).
  { unfold null. apply forallb_forall. intros d Hd. unfold data in Hd. rewrite List.map_map in Hd. apply in_map_iff in Hd as [r [<- Hr]].
    destruct (Req_EM_T _ 0) as [|N]; [reflexivity|]. exfalso. apply N. rewrite <- (HZ r Hr). unfold prediction. f_equal. apply fsum_ext. intros i Hi. f_equal. cbn [fst].
    rewrite (ccell_x s covs t k Cx i r) by (auto; now apply arm_incl in Hr). reflexivity. }
  unfold lm'. rewrite EN. cbn [fst]. intros H. injection H as H. lra.
Qed.

(** With one covariate (where it varies) the regression gives what Cov / Var gives (C28). *)
Lemma fits_one {A} (x y : A -> R) rows a b : fits 1 (fun _ => x) y rows a b <-> least_squares x y rows a (b 0%nat).
Proof.
  assert (E : forall a b, sum_of (fun r => (y r - prediction 1 (fun _ => x) a b r) ^ 2) rows = sum_of (fun r => (y r - (a + b 0%nat * x r)) ^ 2) rows).
  { intros. apply sum_of_ext. intros r _. unfold prediction. cbn [fsum]. f_equal. ring. }
  split.
  - intros H a' b'. specialize (H a' (fun _ => b')). rewrite !E in H. exact H.
  - intros H a' b'. rewrite !E. apply H.
Qed.
Theorem C75_one_covariate : forall lm s conds y x t k c, solves lm -> y <> x -> List.length k = List.length s ->
  complete (Col y) (slice s k t) -> complete (Col x) (slice s k t) -> List.length c = List.length conds ->
  let X := at_ (Col x) in
  (forall fr v, 0 < cross X X (slice (s ++ conds) (k ++ c) t) -> prepost_many_adjusted lm s conds y [x] t = Some fr ->
     value_at (k ++ c) (prepost_adjusted s conds y x t) v -> value_at (k ++ c) fr v) /\
  (forall base incl res res', List.length base = List.length conds -> 0 < cross X X (slice s k t) -> slice (s ++ conds) (k ++ c) t <> [] -> slice (s ++ conds) (k ++ base) t <> [] ->
     incl = true \/ c <> base -> cuped s conds y x base incl t = Some res -> cuped_many lm s conds y [x] base incl t = Some res' ->
     exists v, In (k ++ c, Fin v) res /\ In (k ++ c, Fin v) res').
Proof.
  intros lm s conds y x t k c S1 D Lk Cy Cx Lc X. assert (D' : ~ In y [x]) by (intros [H|[]]; congruence).
  assert (Cx' : Forall (fun x => complete (Col x) (slice s k t)) [x]) by (constructor; [exact Cx|constructor]).
  assert (FX : forall (d : drow -> R -> R) Y rows a b, fits 1 (fun i r => d r (at_ (Col (nth i [x] EmptyString)) r)) Y rows a b <-> least_squares (fun r => d r (X r)) Y rows a (b 0%nat)).
  { intros d Y rows a b. rewrite <- fits_one. split; apply fits_ext; auto; intros [|i] r Hi _; try lia; reflexivity. }
  split.
  - intros fr v Hc R1 HV. pose proof (cross_ne _ _ Hc) as Nc.
    destruct (C28_prepost_is_regression s conds y x t k D Lk Cy Cx c Hc) as (a & b & V & _ & U).
    destruct (C75_prepost_is_regression lm S1 s conds y [x] t k D' Lk Cy Cx' fr c R1 Nc) as (a' & b' & V' & F' & _).
    assert (L : least_squares (fun r => X r - mean_of X (slice s k t)) (at_ (Col y)) (slice (s ++ conds) (k ++ c) t) a' (b' 0%nat)).
    { apply (FX (fun _ w => w - mean_of X (slice s k t))). apply fits_ext with (3 := F'); auto. intros [|i] r Hi _; [reflexivity|cbn in Hi; lia]. }
    destruct (U _ _ L) as [-> _]. unfold value_at in V, HV. pose proof (eq_trans (eq_sym HV) V) as EV. apply (f_equal (List.map snd)) in EV. cbn [List.map snd] in EV. injection EV as ->. exact V'.
  - intros base incl res res' Lb Hk Nc Nb Hi R1 R2.
    pose proof (line_ls X (at_ (Col y)) (slice s k t) Hk) as L.
    pose proof (C28_cuped_change s conds y x t k D Lk Cy Cx base incl res c _ _ Lc Lb Nc Nb Hk L Hi R1) as V1.
    assert (F : fits 1 (fun i => at_ (Col (nth i [x] EmptyString))) (at_ (Col y)) (slice s k t) (intercept X (at_ (Col y)) (slice s k t)) (fun _ => slope X (at_ (Col y)) (slice s k t))) by now apply (FX (fun _ w => w)).
    pose proof (C75_cuped_change lm S1 s conds y [x] t k D' Lk Cy Cx' base incl res' c _ _ Lc Lb Nc Nb F Hi R2) as V2.
    eexists. split; [exact V1|]. eapply eq_ind_r with (P := fun z => In (k ++ c, Fin z) res'); [exact V2|]. cbn. fold X. ring.
Qed.

(** When they raise (every row has its labels): a missing or infinite value of the child or of a covariate
    anywhere, or no row of the baseline. *)
Definition number (n : num) : Prop := exists a, n = Fin a.
Lemma finite_number n : finite_cell n = true <-> number n.
Proof. destruct n; cbn; split; try discriminate; try (intros [a H]; discriminate). - intros _. now exists r. - reflexivity. Qed.
Lemma not_finite n : finite_cell n = false <-> ~ number n.
Proof. rewrite <- finite_number. destruct (finite_cell n); split; congruence. Qed.
Lemma cell_down s y covs t r v : ~ In y covs -> In v (y :: covs) -> finite_cell (val r v) = false -> finite_cell (val (ccell s covs t r) v) = false.
Proof.
  intros D Hv H. destruct Hv as [<-|Hv]; [now rewrite ccell_y|]. cbn [ccell val]. destruct (in_dec string_dec v covs); [|contradiction].
  destruct (val r v); [discriminate| | |]; destruct (split_mean s v t r); reflexivity.
Qed.
Lemma cell_up s y covs t r g v : ~ In y covs -> In r t -> row_key s r = Some g -> In v (y :: covs) -> finite_cell (val (ccell s covs t r) v) = false ->
  exists r', In r' t /\ finite_cell (val r' v) = false.
Proof.
  intros D Hr Hg Hv H. destruct Hv as [<-|Hv]; [rewrite ccell_y in H by assumption; eauto|]. cbn [ccell val] in H. destruct (in_dec string_dec v covs); [|contradiction].
  unfold split_mean in H. rewrite Hg in H. destruct (forallb (fun r => finite_cell (val r v)) (slice s g t)) eqn:E.
  - rewrite forallb_forall in E. assert (Hin : In r (slice s g t)) by now apply slice_In. rewrite agg_mean_value in H.
    + pose proof (E r Hin) as Er. destruct (val r v); discriminate.
    + apply Forall_forall. intros r' Hr'. apply finite_number, E, Hr'.
    + intros E0. rewrite E0 in Hin. destruct Hin.
  - assert (X : exists r', In r' (slice s g t) /\ finite_cell (val r' v) = false).
    { clear -E. induction (slice s g t) as [|q l IH]; [discriminate|]. cbn [forallb] in E. apply andb_false_iff in E as [E|E]; [exists q; split; [now left|exact E]|]. destruct (IH E) as [r' [H1 H2]]. exists r'. split; [now right|exact H2]. }
    destruct X as [r' [H1 H2]]. apply slice_In in H1 as [H1 _]. eauto.
Qed.
Theorem C75_raises_iff : forall lm s conds y covs base incl t, ~ In y covs -> conds <> [] -> List.length base = List.length conds -> t <> [] ->
  (forall r, In r t -> row_key (s ++ conds) r <> None) ->
  let raises := (exists r v, In r t /\ In v (y :: covs) /\ ~ number (val r v)) \/ (forall r, In r t -> row_key conds r <> Some base) in
  (prepost_many lm s conds y covs base incl t = None <-> raises) /\ (cuped_many lm s conds y covs base incl t = None <-> raises).
Proof.
  intros lm s conds y covs base incl t D Hc Lb Nt HL raises.
  assert (Split : forall r, In r t -> exists g c, row_key s r = Some g /\ row_key conds r = Some c /\ row_key (s ++ conds) r = Some (g ++ c)).
  { intros r Hr. specialize (HL r Hr). rewrite row_key_app in *. destruct (row_key s r) as [g|]; [|congruence]. destruct (row_key conds r) as [c|]; [|congruence]. exists g, c. auto. }
  assert (Nsc : s ++ conds <> []) by (destruct s; [exact Hc|discriminate]).
  assert (Bad : forall cols (keep : forall r, In r t -> exists g, row_key cols r = Some g),
    (exists q, In q (group_keys cols t) /\ fit lm y covs (slice cols q (centered_all s covs t)) = None) <-> exists r v, In r t /\ In v (y :: covs) /\ ~ number (val r v)).
  { intros cols keep. split.
    - intros [q [Hq Hf]]. assert (Nq : slice cols q t <> []).
      { apply group_keys_In in Hq as [[-> ->]|[_ [r [Hr Hk]]]]; [|apply slice_nonempty; eauto]. destruct t as [|r0 t0]; [congruence|]. apply slice_nonempty. exists r0. split; [now left|reflexivity]. }
      rewrite slice_call in Hf. apply fit_None in Hf; [|destruct (slice cols q t); [congruence|discriminate]].
      destruct Hf as (r' & v & Hr' & Hv & Hf). apply in_map_iff in Hr' as [r [<- Hr]]. apply slice_In in Hr as [Hr _]. destruct (Split r Hr) as (g & _ & Hg & _).
      destruct (cell_up s y covs t r g v D Hr Hg Hv Hf) as [r2 [H1 H2]]. exists r2, v. repeat split; auto. now apply not_finite.
    - intros (r & v & Hr & Hv & Hn). destruct (keep r Hr) as [q Hq]. exists q. split.
      + apply group_keys_In. destruct cols; [left; cbn in Hq; split; congruence|right; split; [discriminate|eauto]].
      + rewrite slice_call. apply fit_None.
        * assert (slice cols q t <> []) by (apply slice_nonempty; eauto). destruct (slice cols q t); [congruence|discriminate].
        * exists (ccell s covs t r), v. repeat split; auto; [apply in_map, slice_In; auto|]. apply (cell_down s y); auto. now apply not_finite. }
  assert (Cond : forall r g c, row_key s r = Some g -> row_key conds r = Some c -> cond_of (List.length s) (List.length conds) (g ++ c) = c).
  { intros r g c Hg Hc'. replace (g ++ c) with (g ++ c ++ []) by (now rewrite app_nil_r). apply cond_of_app; [now apply (row_key_length s r)|now apply (row_key_length conds r)]. }
  split.
  - unfold prepost_many. destruct (prepost_many_adjusted lm s conds y covs t) as [fr|] eqn:R.
    + assert (NB : ~ exists r v, In r t /\ In v (y :: covs) /\ ~ number (val r v)).
      { intros HB. apply (Bad (s ++ conds)) in HB as [q [Hq Hf]]; [|intros r Hr; destruct (Split r Hr) as (g & c & _ & _ & E); eauto].
        assert (prepost_many_adjusted lm s conds y covs t = None); [|congruence]. apply each_None. exists q. rewrite keys_call. split; [exact Hq|]. now rewrite Hf. }
      unfold percent_change. rewrite compare_raises. rewrite (prepost_many_map lm s conds y covs t fr R). unfold raises. split.
      * intros H. right. intros r Hr E. destruct (Split r Hr) as (g & c & E1 & E2 & E3). apply (H (g ++ c) (prepost_cell lm s conds y covs t (g ++ c))).
        -- apply in_map_iff. exists (g ++ c). split; [reflexivity|]. apply group_keys_In. right. split; [exact Nsc|eauto].
        -- rewrite (Cond r g c E1 E2). congruence.
      * intros [H|H]; [contradiction|]. intros q v Hq E. apply in_map_iff in Hq as [q' [Eq Hq]]. injection Eq as -> _.
        apply group_keys_In in Hq as [[F _]|[_ [r [Hr Hk]]]]; [contradiction|]. destruct (Split r Hr) as (g & c & E1 & E2 & E3). rewrite E3 in Hk. injection Hk as <-. rewrite (Cond r g c E1 E2) in E. subst c. exact (H r Hr E2).
    + split; [intros _; left|auto]. apply each_None in R as [q [Hq Hf]]. rewrite keys_call in Hq. apply (Bad (s ++ conds)).
      * intros r Hr. destruct (Split r Hr) as (g & c & _ & _ & E). eauto.
      * exists q. split; [exact Hq|]. now destruct (fit _ _ _ _).
  - assert (Keep : forall r, In r t -> exists g, row_key s r = Some g) by (intros r Hr; destruct (Split r Hr) as (g & _ & E & _); eauto).
    unfold cuped_many. destruct (cuped_many_adjusted lm s conds y covs t) as [fr|] eqn:R.
    + assert (NB : ~ exists r v, In r t /\ In v (y :: covs) /\ ~ number (val r v)).
      { intros HB. apply (Bad s Keep) in HB as [q [Hq Hf]]. unfold cuped_many_adjusted in R.
        assert (E : each (cuped_slice lm s conds y covs (centered_all s covs t)) (group_keys s (centered_all s covs t)) = None); [|rewrite E in R; discriminate].
        apply each_None. exists q. rewrite keys_call. split; [exact Hq|]. unfold cuped_slice. now rewrite Hf. }
      unfold absolute_change. rewrite compare_raises. rewrite (cuped_many_map lm s conds y covs t fr R). unfold raises. split.
      * intros H. right. intros r Hr E. destruct (Split r Hr) as (g & c & E1 & E2 & E3). apply (H (g ++ c) (cuped_cell lm s conds y covs t g c)).
        -- apply in_map_iff. exists (g, c). split; [reflexivity|]. unfold cuped_keys. apply in_flat_map. exists g. split.
           ++ apply group_keys_In. destruct s; [left; cbn in E1; split; congruence|right; split; [discriminate|eauto]].
           ++ apply in_map_iff. exists c. split; [reflexivity|]. apply group_keys_In. right. split; [exact Hc|]. exists r. split; [|exact E2]. now apply slice_In.
        -- rewrite (Cond r g c E1 E2). congruence.
      * intros [H|H]; [contradiction|]. intros q v Hq E. apply in_map_iff in Hq as [[g c] [Eq Hq]]. cbn [fst snd] in Eq. injection Eq as <- _.
        unfold cuped_keys in Hq. apply in_flat_map in Hq as [g' [Hg Hq]]. apply in_map_iff in Hq as [c' [Eq Hq]]. injection Eq as -> ->.
        apply group_keys_In in Hq as [[F _]|[_ [r [Hr Hk]]]]; [contradiction|]. apply slice_In in Hr as [Hr Hs]. rewrite (Cond r g c Hs Hk) in E. subst c. exact (H r Hr Hk).
    + split; [intros _; left|auto]. unfold cuped_many_adjusted in R. destruct (each _ _) eqn:Ee; [discriminate|]. apply each_None in Ee as [q [Hq Hf]]. rewrite keys_call in Hq. apply (Bad s Keep).
      exists q. split; [exact Hq|]. unfold cuped_slice in Hf. now destruct (fit _ _ _ _).
Qed.
Print Assumptions C75_raises_iff.

(** Cases. *)
Definition row3 (c i : string) (yv x1 x2 : num) : drow :=
  Row (fun col => if String.eqb col "cond" then Some c else Some i) (fun v => if String.eqb v "y" then yv else if String.eqb v "x1" then x1 else x2).
Definition three_rows : table :=
  [row3 "ctl" "1" (Fin 1) (Fin 0) (Fin 0); row3 "ctl" "2" (Fin 2) (Fin 1) (Fin 0); row3 "ctl" "3" (Fin 3) (Fin 0) (Fin 1);
   row3 "exp" "1" (Fin 3) (Fin 0) (Fin 0); row3 "exp" "2" (Fin 5) (Fin 2) (Fin 0); row3 "exp" "3" (Fin 4) (Fin 0) (Fin 1)].
Ltac numbers := repeat (first [apply Forall_nil | apply Forall_cons]); try (eexists; reflexivity).
Ltac computes := cbn [slice filter has_key row_key lab row3 String.eqb Ascii.eqb Bool.eqb key_eqb app].
Lemma three_arms : slice ["cond"%string] ["ctl"%string] three_rows = firstn 3 three_rows /\ slice ["cond"%string] ["exp"%string] three_rows = skipn 3 three_rows.
Proof. split; reflexivity. Qed.
Lemma no_y : ~ In "y"%string ["x1"%string; "x2"%string]. Proof. intros [H|[H|[]]]; discriminate. Qed.
(** y = 1 + x1 + 2 x2 in the baseline, 3 + x1 + x2 in the other arm; the means of x1, x2 are 1/2, 1/3. *)
Example C75_prepost_case : forall lm, solves lm -> exists res,
  prepost_many lm [] ["cond"%string] "y" ["x1"%string; "x2"%string] ["ctl"%string] false three_rows = Some res /\
  In (["exp"%string], Fin (1000 / 13)) res.
Proof.
  intros lm HS.
  destruct (prepost_many lm [] ["cond"%string] "y" ["x1"%string; "x2"%string] ["ctl"%string] false three_rows) as [res|] eqn:R.
  - exists res. split; [reflexivity|]. replace (1000 / 13) with (10 / 6 / (13 / 6) * 100) by field.
    destruct three_arms as [A1 A2].
    assert (M1 : mean_of (at_ (Col "x1")) three_rows = 1 / 2) by (unfold mean_of, sum_of, size; cbn; lra).
    assert (M2 : mean_of (at_ (Col "x2")) three_rows = 1 / 3) by (unfold mean_of, sum_of, size; cbn; lra).
    eapply (C75_prepost_interaction_model lm HS [] ["cond"%string] "y" ["x1"%string; "x2"%string] three_rows [] no_y eq_refl) with
      (c := ["exp"%string]) (base := ["ctl"%string]) (incl := false)
      (b2 := fun i => match i with O => 1 | _ => 2 end) (b3 := fun i => match i with O => 0 | _ => -1 end); try reflexivity.
    + numbers.
    + repeat constructor; eexists; reflexivity.
    + discriminate.
    + discriminate.
    + intros a b H. change (slice ([] ++ ["cond"%string]) ([] ++ ["exp"%string]) three_rows) with (skipn 3 three_rows) in H.
      change (slice [] [] three_rows) with three_rows in H. cbn [skipn three_rows] in H.
      pose proof (H _ (or_introl eq_refl)) as H1. pose proof (H _ (or_intror (or_introl eq_refl))) as H2. pose proof (H _ (or_intror (or_intror (or_introl eq_refl)))) as H3.
      unfold prediction in H1, H2, H3. cbn [List.length fsum nth] in H1, H2, H3. rewrite M1, M2 in H1, H2, H3. unfold at_ in H1, H2, H3. cbn in H1, H2, H3. lra.
    + intros a b H. change (slice ([] ++ ["cond"%string]) ([] ++ ["ctl"%string]) three_rows) with (firstn 3 three_rows) in H.
      change (slice [] [] three_rows) with three_rows in H. cbn [firstn three_rows] in H.
      pose proof (H _ (or_introl eq_refl)) as H1. pose proof (H _ (or_intror (or_introl eq_refl))) as H2. pose proof (H _ (or_intror (or_intror (or_introl eq_refl)))) as H3.
      unfold prediction in H1, H2, H3. cbn [List.length fsum nth] in H1, H2, H3. rewrite M1, M2 in H1, H2, H3. unfold at_ in H1, H2, H3. cbn in H1, H2, H3. lra.
    + change (slice [] [] three_rows) with three_rows. change (slice ([] ++ ["cond"%string]) ([] ++ ["exp"%string]) three_rows) with (skipn 3 three_rows). change (slice ([] ++ ["cond"%string]) ([] ++ ["ctl"%string]) three_rows) with (firstn 3 three_rows).
      apply interaction_many. split; intros a' b';
        (eapply Rle_trans; [|apply sum_of_nonneg; intros; apply pow2_ge_0]);
        unfold prediction; cbn [List.length fsum nth]; rewrite M1, M2; unfold sum_of, at_; cbn; lra.
    + lra.
    + right. discriminate.
    + exact R.
  - exfalso. apply C75_raises_iff in R; [|exact no_y|discriminate|reflexivity|discriminate|].
    + destruct R as [(r & v & Hr & Hv & Hn)|H].
      * apply Hn. cbn in Hr, Hv. destruct Hv as [<-|[<-|[<-|[]]]]; destruct Hr as [<-|[<-|[<-|[<-|[<-|[<-|[]]]]]]]; eexists; reflexivity.
      * apply (H (row3 "ctl" "1" (Fin 1) (Fin 0) (Fin 0))); [now left|reflexivity].
    + intros r Hr. cbn in Hr. destruct Hr as [<-|[<-|[<-|[<-|[<-|[<-|[]]]]]]]; discriminate.
Qed.
(** Two rows per arm; x2 is constant in each arm.  CUPED attributes the difference to x2; PrePost is not
    determined. *)
Definition two_rows : table :=
  [row3 "ctl" "1" (Fin 0) (Fin 0) (Fin 0); row3 "ctl" "2" (Fin 2) (Fin 1) (Fin 0); row3 "exp" "1" (Fin 2) (Fin 1) (Fin 1); row3 "exp" "2" (Fin 4) (Fin 0) (Fin 1)].
Example C75_cuped_case : forall lm, solves lm -> exists res,
  cuped_many lm [] ["cond"%string] "y" ["x1"%string; "x2"%string] ["ctl"%string] false two_rows = Some res /\ In (["exp"%string], Fin 0) res.
Proof.
  intros lm HS.
  destruct (cuped_many lm [] ["cond"%string] "y" ["x1"%string; "x2"%string] ["ctl"%string] false two_rows) as [res|] eqn:R.
  - exists res. split; [reflexivity|].
    eapply eq_ind_r with (P := fun z => In (["exp"%string], Fin z) res).
    + eapply (C75_cuped_change lm HS [] ["cond"%string] "y" ["x1"%string; "x2"%string] two_rows [] no_y eq_refl) with
        (c := ["exp"%string]) (base := ["ctl"%string]) (incl := false) (a := 1) (b := fun i => match i with O => 0 | _ => 2 end); try reflexivity.
      * numbers.
      * repeat constructor; eexists; reflexivity.
      * discriminate.
      * discriminate.
      * apply orth_fits. change (slice [] [] two_rows) with two_rows. split.
        -- unfold prediction, sum_of, at_. cbn. lra.
        -- intros i Hi. destruct i as [|[|i]]; [| |cbn in Hi; lia]; unfold prediction, sum_of, at_; cbn; lra.
      * right. discriminate.
      * exact R.
    + change (slice ([] ++ ["cond"%string]) ([] ++ ["exp"%string]) two_rows) with (skipn 2 two_rows). change (slice ([] ++ ["cond"%string]) ([] ++ ["ctl"%string]) two_rows) with (firstn 2 two_rows).
      unfold mean_of, sum_of, size, at_. cbn. lra.
  - exfalso. apply C75_raises_iff in R; [|exact no_y|discriminate|reflexivity|discriminate|].
    + destruct R as [(r & v & Hr & Hv & Hn)|H].
      * apply Hn. cbn in Hr, Hv. destruct Hv as [<-|[<-|[<-|[]]]]; destruct Hr as [<-|[<-|[<-|[<-|[]]]]]; eexists; reflexivity.
      * apply (H (row3 "ctl" "1" (Fin 0) (Fin 0) (Fin 0))); [now left|reflexivity].
    + intros r Hr. cbn in Hr. destruct Hr as [<-|[<-|[<-|[<-|[]]]]]; discriminate.
Qed.
(** "The adjusted value is determined by the data" is false of PrePost with several covariates. *)
Theorem C75_prepost_determined_refuted : exists lm lm' t fr fr' v v', solves lm /\ solves lm' /\
  prepost_many_adjusted lm [] ["cond"%string] "y" ["x1"%string; "x2"%string] t = Some fr /\ prepost_many_adjusted lm' [] ["cond"%string] "y" ["x1"%string; "x2"%string] t = Some fr' /\
  value_at ["exp"%string] fr v /\ value_at ["exp"%string] fr' v' /\ v <> v'.
Proof.
  destruct C75_regression_exists as [lm HS].
  destruct (prepost_many_adjusted lm [] ["cond"%string] "y" ["x1"%string; "x2"%string] two_rows) as [fr|] eqn:R.
  - assert (C1 : complete (Col "y") (slice [] [] two_rows)) by numbers.
    assert (C2 : Forall (fun x => complete (Col x) (slice [] [] two_rows)) ["x1"%string; "x2"%string]) by (repeat constructor; eexists; reflexivity).
    assert (N : slice ([] ++ ["cond"%string]) ([] ++ ["exp"%string]) two_rows <> []) by discriminate.
    destruct (C75_prepost_is_regression lm HS [] ["cond"%string] "y" ["x1"%string; "x2"%string] two_rows [] no_y eq_refl C1 C2 fr ["exp"%string] R N) as (a & b & V & _).
    destruct (C75_prepost_undetermined lm [] ["cond"%string] "y" ["x1"%string; "x2"%string] two_rows [] fr ["exp"%string] (Fin a) 1 (fun i => match i with O => 0 | _ => -2 end) HS no_y eq_refl C1 C2 N) as (lm' & fr' & v' & H1 & H2 & H3 & H4).
    + intros r Hr. change (slice ([] ++ ["cond"%string]) ([] ++ ["exp"%string]) two_rows) with (skipn 2 two_rows) in Hr. change (slice [] [] two_rows) with two_rows.
      cbn [skipn two_rows In] in Hr. destruct Hr as [<-|[<-|[]]]; unfold prediction, mean_of, sum_of, size, at_; cbn; lra.
    + lra.
    + exact R.
    + exact V.
    + exists lm, lm', two_rows, fr, fr', (Fin a), v'. repeat split; auto.
  - exfalso. apply each_None in R as [q [Hq Hf]]. rewrite keys_call in Hq.
    assert (Hf' : fit lm "y" ["x1"%string; "x2"%string] (slice ([] ++ ["cond"%string]) q (centered_all [] ["x1"%string; "x2"%string] two_rows)) = None) by (destruct (fit _ _ _ _); [discriminate|reflexivity]).
    rewrite slice_call in Hf'. destruct (fit_value lm [] "y" ["x1"%string; "x2"%string] no_y two_rows [] ltac:(numbers) ltac:(repeat constructor; eexists; reflexivity) HS (slice ([] ++ ["cond"%string]) q two_rows)) as [ab [E _]].
    + intros r Hr. apply slice_In in Hr as [Hr _]. exact Hr.
    + apply group_keys_In in Hq as [[F _]|[_ [r [Hr Hk]]]]; [discriminate|]. apply slice_nonempty. eauto.
    + congruence.
Qed.
(** A missing covariate: with one covariate the row is left out of its means, with two the computation
    raises. *)
Definition missing_rows : table := row3 "exp" "3" (Fin 7) NaN (Fin 0) :: three_rows.
Theorem C75_missing_refuted : (exists res, prepost [] ["cond"%string] "y" "x1" ["ctl"%string] false missing_rows = Some res) /\
  forall lm, prepost_many lm [] ["cond"%string] "y" ["x1"%string; "x2"%string] ["ctl"%string] false missing_rows = None /\
             cuped_many lm [] ["cond"%string] "y" ["x1"%string; "x2"%string] ["ctl"%string] false missing_rows = None.
Proof.
  split; [eexists; reflexivity|]. intros lm.
  assert (HL : forall r, In r missing_rows -> row_key ([] ++ ["cond"%string]) r <> None) by (intros r Hr; cbn in Hr; destruct Hr as [<-|[<-|[<-|[<-|[<-|[<-|[<-|[]]]]]]]]; discriminate).
  assert (HB : exists r v, In r missing_rows /\ In v ["y"%string; "x1"%string; "x2"%string] /\ ~ number (val r v)).
  { exists (row3 "exp" "3" (Fin 7) NaN (Fin 0)), "x1"%string. split; [now left|]. split; [right; now left|]. intros [a H]. discriminate. }
  split; apply (C75_raises_iff lm [] ["cond"%string] "y" ["x1"%string; "x2"%string] ["ctl"%string] false missing_rows no_y ltac:(discriminate) eq_refl ltac:(discriminate) HL); left; exact HB.
Qed.
