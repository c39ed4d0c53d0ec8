(** C28: PrePostChange and CUPED with one covariate. *)
From Coq Require Import Reals List Bool String Arith Lia Lra.
From Verif Require Import M_Num M_Frame M_Ops M_Leaf M_Adjust S_Ops S_Leaf S_Adjust L_Frame L_OpsB L_Leaf L_Leaf2 L_Slices L_Adjust.
Import ListNotations.
Open Scope list_scope.
Open Scope R_scope.

Section C28.
  (** The columns: split_by s, condition_column conds, child y and covariate x of the table of the child's
      results; k a split; both columns have numbers in its rows. *)
  Variables (s conds : list string) (y x : string) (t : table) (k : list string).
  Hypothesis different : y <> x.
  Hypothesis k_length : List.length k = List.length s.
  Hypothesis y_complete : complete (Col y) (slice s k t).
  Hypothesis x_complete : complete (Col x) (slice s k t).
  Let Y := at_ (Col y).
  Let X := at_ (Col x).
  (** the rows of condition c in the split, the covariate minus its mean over the split *)
  Let arm c := slice (s ++ conds) (k ++ c) t.
  Let Z := fun r => X r - mean_of X (slice s k t).

  (** C28, PrePost: if the covariate is not constant in the arm, the adjusted value is the intercept of the
      line of least squares of the child on the centered covariate; that line is unique. *)
  Theorem C28_prepost_is_regression : forall c, 0 < cross X X (arm c) ->
    exists a b, value_at (k ++ c) (prepost_adjusted s conds y x t) (Fin a) /\ least_squares Z Y (arm c) a b /\
      forall a' b', least_squares Z Y (arm c) a' b' -> a' = a /\ b' = b.
  Proof.
    intros c Hc. assert (Hz : 0 < cross Z Z (arm c)) by (unfold Z; now rewrite cross_shift2).
    exists (intercept Z Y (arm c)), (slope Z Y (arm c)). split; [|split].
    - exact (prepost_value s conds y x different t k k_length y_complete x_complete c Hc).
    - now apply line_ls.
    - intros a' b'. now apply line_unique.
  Qed.
  (** The result is that of the model of the class doc, fitted to the baseline and the arm together. *)
  Theorem C28_prepost_interaction_model : forall base incl res c b0 b1 b2 b3,
    List.length c = List.length conds -> List.length base = List.length conds ->
    0 < cross X X (arm c) -> 0 < cross X X (arm base) ->
    best_interaction_model Z Y (arm base) (arm c) b0 b1 b2 b3 -> b0 <> 0 -> incl = true \/ c <> base ->
    prepost s conds y x base incl t = Some res -> In (k ++ c, Fin (b1 / b0 * 100)) res.
  Proof.
    intros base incl res c b0 b1 b2 b3 Lc Lb Hc Hb HM H0 Hi HR.
    assert (Hzc : 0 < cross Z Z (arm c)) by (unfold Z; now rewrite cross_shift2).
    assert (Hzb : 0 < cross Z Z (arm base)) by (unfold Z; now rewrite cross_shift2).
    destruct (interaction_splits Z Y _ _ _ _ _ _ Hzb Hzc HM) as [E0 E1].
    pose proof (value_at_In _ _ _ (prepost_value s conds y x different t k k_length y_complete x_complete c Hc)) as V1.
    pose proof (value_at_In _ _ _ (prepost_value s conds y x different t k k_length y_complete x_complete base Hb)) as V2.
    change (intercept _ _ _) with (intercept Z Y (arm c)) in V1. change (intercept _ _ _) with (intercept Z Y (arm base)) in V2.
    rewrite <- E1 in V1. rewrite <- E0 in V2.
    destruct (adjusted_index s conds (fun q => xsub (agg_mean y (slice (s ++ conds) q (centered s x t))) (xmul (agg_mean x (slice (s ++ conds) q (centered s x t))) (theta y x (slice (s ++ conds) q (centered s x t))))) (centered s x t)) as [I1 I2].
    replace (b1 / b0 * 100) with (((b0 + b1) / b0 - 1) * 100) by (field; assumption). rewrite <- percent_value by assumption.
    replace (k ++ c) with (k ++ c ++ []) by (now rewrite app_nil_r).
    apply (fun I => compare_row _ (List.length s) (List.length conds) base incl (prepost_adjusted s conds y x t) res Lb I HR k c []); auto.
    - split; [exact I1|]. intros q v Hq. apply I2 in Hq. lia.
    - rewrite app_nil_r. exact V1.
    - rewrite app_nil_r. exact V2.
  Qed.
  (** CUPED: the change is the difference of the means of y - b x, b the least squares slope over the
      whole split. *)
  Theorem C28_cuped_change : forall base incl res c a b,
    List.length c = List.length conds -> List.length base = List.length conds ->
    arm c <> [] -> arm base <> [] -> 0 < cross X X (slice s k t) -> least_squares X Y (slice s k t) a b -> incl = true \/ c <> base ->
    cuped s conds y x base incl t = Some res ->
    In (k ++ c, Fin ((mean_of Y (arm c) - mean_of Y (arm base)) - b * (mean_of X (arm c) - mean_of X (arm base)))) res.
  Proof.
    intros base incl res c a b Lc Lb Hc Hb HX HL Hi HR. apply (line_unique X Y) in HL; [|exact HX]. destruct HL as [_ ->].
    pose proof (value_at_In _ _ _ (cuped_value s conds y x different t k k_length y_complete x_complete c Hc HX)) as V1.
    pose proof (value_at_In _ _ _ (cuped_value s conds y x different t k k_length y_complete x_complete base Hb HX)) as V2.
    destruct (adjusted_index s conds (fun q => xsub (agg_mean y (slice (s ++ conds) q (centered s x t))) (xmul (agg_mean x (slice (s ++ conds) q (centered s x t))) (theta y x (slice s (firstn (List.length s) q) (centered s x t))))) (centered s x t)) as [I1 I2].
    eapply eq_ind_r with (P := fun z => In (k ++ c, z) res).
    - replace (k ++ c) with (k ++ c ++ []) by (now rewrite app_nil_r).
      apply (fun I => compare_row _ (List.length s) (List.length conds) base incl (cuped_adjusted s conds y x t) res Lb I HR k c []); auto.
      + split; [exact I1|]. intros q v Hq. apply I2 in Hq. lia.
      + rewrite app_nil_r. exact V1.
      + rewrite app_nil_r. exact V2.
    - rewrite xsub_fin. apply (f_equal Fin). fold X Y (arm c) (arm base). ring.
  Qed.
  (** The queries give the same: PrePost's adjusted value, and CUPED's change although the query does not
      center the covariate. *)
  Theorem C28_prepost_query : forall c v, 0 < cross X X (arm c) -> value_at (k ++ c) (prepost_adjusted s conds y x t) v ->
    value_at (k ++ c) (prepost_sql_adjusted s conds y x t) v.
  Proof.
    intros c v Hc HV. pose proof (prepost_value s conds y x different t k k_length y_complete x_complete c Hc) as V1. unfold value_at in HV, V1. rewrite HV in V1. injection V1 as ->.
    exact (prepost_sql_value s conds y x different t k k_length y_complete x_complete c Hc).
  Qed.
  Theorem C28_cuped_query : forall c base, arm c <> [] -> arm base <> [] -> 0 < cross X X (slice s k t) ->
    exists v b v' b', value_at (k ++ c) (cuped_adjusted s conds y x t) (Fin v) /\ value_at (k ++ base) (cuped_adjusted s conds y x t) (Fin b) /\
      value_at (k ++ c) (cuped_sql_adjusted s conds y x t) (Fin v') /\ value_at (k ++ base) (cuped_sql_adjusted s conds y x t) (Fin b') /\ v - b = v' - b'.
  Proof.
    intros c base Hc Hb HX. do 4 eexists. split; [|split; [|split; [|split]]].
    - exact (cuped_value s conds y x different t k k_length y_complete x_complete c Hc HX).
    - exact (cuped_value s conds y x different t k k_length y_complete x_complete base Hb HX).
    - exact (cuped_sql_value s conds y x t k k_length y_complete x_complete c Hc HX).
    - exact (cuped_sql_value s conds y x t k k_length y_complete x_complete base Hb HX).
    - ring.
  Qed.
  (** PrePost: a constant added to the child in one arm shifts that adjusted value by the constant and
      leaves the other arms alone. *)
  Theorem C28_prepost_arm_shift : forall c c' d v, 0 < cross X X (arm c') -> value_at (k ++ c') (prepost_adjusted s conds y x t) (Fin v) ->
    value_at (k ++ c') (prepost_adjusted s conds y x (shift_arm (s ++ conds) (k ++ c) y d t)) (Fin (if list_eq_dec string_dec c' c then v + d else v)).
  Proof. intros c c' d v. exact (arm_shift s conds y x t k c d different k_length y_complete x_complete c' v). Qed.
End C28.
Print Assumptions C28_prepost_interaction_model.
Print Assumptions C28_cuped_change.
(** Adding to the covariate, in every split its own constant, changes neither result (numbers or missing
    values in the covariate). *)
Theorem C28_covariate_shift : forall s conds y x d base incl t, Forall (fun r => val r x <> PInf /\ val r x <> NInf) t ->
  prepost s conds y x base incl (shift_covariate s x d t) = prepost s conds y x base incl t /\
  cuped s conds y x base incl (shift_covariate s x d t) = cuped s conds y x base incl t.
Proof.
  intros s conds y x d base incl t H. unfold prepost, cuped, prepost_adjusted, cuped_adjusted. rewrite shift_centered by exact H. auto.
Qed.
Print Assumptions C28_covariate_shift.

(** CUPED has one slope for all arms: adding 1 to the child in one arm need not move the change by 1. *)
Definition ex_row (c : string) (i : string) (yv xv : R) : drow :=
  Row (fun col => if String.eqb col "cond" then Some c else Some i) (fun v => if String.eqb v "y" then Fin yv else Fin xv).
Definition ex_t : table := [ex_row "ctl" "1" 0 0; ex_row "ctl" "2" 1 1; ex_row "exp" "1" 2 2; ex_row "exp" "2" 3 3].
Theorem C28_cuped_arm_shift_refuted : exists t d res res' v v',
  cuped [] ["cond"%string] "y" "x" ["ctl"%string] false t = Some res /\ cuped [] ["cond"%string] "y" "x" ["ctl"%string] false (shift_arm ["cond"%string] ["exp"%string] "y" d t) = Some res' /\
  In (["exp"%string], Fin v) res /\ In (["exp"%string], Fin v') res' /\ v' <> v + d.
Proof.
  exists ex_t, 1. do 2 eexists. exists 0, (1 / 5).
  split; [reflexivity|]. split; [reflexivity|].
  assert (D : "y"%string <> "x"%string) by discriminate.
  split; [|split; [|lra]].
  - assert (C : 0 < cross (at_ (Col "x")) (at_ (Col "x")) (slice [] [] ex_t)) by (rewrite cross_formula by discriminate; unfold sum_of, size; cbn; lra).
    eapply eq_ind_r with (P := fun z => In (["exp"%string], Fin z) _).
    + eapply (C28_cuped_change [] ["cond"%string] "y" "x" ex_t [] D eq_refl) with (c := ["exp"%string]) (base := ["ctl"%string]) (incl := false);
        [| |reflexivity|reflexivity|discriminate|discriminate|exact C|apply line_ls; exact C|right; discriminate|reflexivity];
        repeat constructor; eexists; reflexivity.
    + unfold slope. rewrite !cross_formula by discriminate. unfold mean_of, sum_of, size. cbn. field.
  - set (t' := shift_arm ["cond"%string] ["exp"%string] "y" 1 ex_t).
    assert (C : 0 < cross (at_ (Col "x")) (at_ (Col "x")) (slice [] [] t')) by (rewrite cross_formula by discriminate; unfold sum_of, size; cbn; lra).
    eapply eq_ind_r with (P := fun z => In (["exp"%string], Fin z) _).
    + eapply (C28_cuped_change [] ["cond"%string] "y" "x" t' [] D eq_refl) with (c := ["exp"%string]) (base := ["ctl"%string]) (incl := false);
        [| |reflexivity|reflexivity|discriminate|discriminate|exact C|apply line_ls; exact C|right; discriminate|reflexivity];
        repeat constructor; eexists; reflexivity.
    + unfold slope. rewrite !cross_formula by discriminate. unfold mean_of, sum_of, size. cbn. field.
Qed.
(** A case for the hypotheses: with two rows in each arm, the exp arm has intercept 5/2 - 3/2. *)
Example C28_example : value_at ["exp"%string] (prepost_adjusted [] ["cond"%string] "y" "x" ex_t) (Fin (3 / 2)).
Proof.
  assert (D : "y"%string <> "x"%string) by discriminate.
  assert (C : 0 < cross (at_ (Col "x")) (at_ (Col "x")) (slice ["cond"%string] ["exp"%string] ex_t)) by (rewrite cross_formula by discriminate; unfold sum_of, size; cbn; lra).
  eapply eq_ind_r with (P := fun z => value_at ["exp"%string] _ (Fin z)).
  - apply (prepost_value [] ["cond"%string] "y" "x" D ex_t [] eq_refl) with (c := ["exp"%string]); [| |exact C]; repeat constructor; eexists; reflexivity.
  - unfold intercept, slope. rewrite !cross_formula by discriminate. unfold center, mean_of, sum_of, size. cbn. field.
Qed.
