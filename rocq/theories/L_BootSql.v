From Coq Require Import Reals List Bool String Arith ZArith Sorted Lia Lra.
From Verif Require Import M_Frame M_Bootstrap M_BootSql L_Frame L_Jackknife L_Bootstrap.
Import ListNotations.
Open Scope list_scope.

Lemma ceiling_bounds n u : (0 < u)%R -> (u <= 1)%R -> (0 < n)%nat -> (1 <= ceiling (u * INR n) <= Z.of_nat n)%Z.
Proof.
  intros H0 H1 Hn. unfold ceiling. destruct (base_Int_part (- (u * INR n))) as [A B]. set (z := Int_part (- (u * INR n))) in *.
  apply lt_INR in Hn. simpl in Hn.
  assert (P : (0 < u * INR n)%R) by nra.
  assert (Q : (u * INR n <= INR n)%R) by nra.
  rewrite INR_IZR_INZ in *. split.
  - assert (z < 0)%Z; [|lia]. apply lt_IZR. lra.
  - assert (- Z.of_nat n < z + 1)%Z; [|lia]. apply lt_IZR. rewrite opp_IZR, plus_IZR. lra.
Qed.

Section ByRow.
  Context {A : Type}.
  Variables (part : A -> option (list string)) (cond : A -> option bool) (rand : nat -> nat -> R).
  Variable k : list string.
  Definition in_slice (r : A) : bool := match part r with Some k' => key_eqb k' k | None => false end.
  Definition chosen (r : A) : bool := in_slice r && is_true (cond r).

  Lemma chosen_iff r : chosen r = true <-> part r = Some k /\ cond r = Some true.
  Proof.
    unfold chosen, in_slice, is_true. rewrite andb_true_iff. split.
    - intros [H1 H2]. destruct (part r); [|discriminate]. apply key_eqb_eq in H1. destruct (cond r) as [[]|]; try discriminate. subst; auto.
    - intros [-> ->]. rewrite key_eqb_refl. auto.
  Qed.
  Lemma chosen_same r r' : chosen r = true -> same_partition part cond r r' = chosen r'.
  Proof.
    intros H. apply chosen_iff in H. destruct H as [H1 H2]. apply eq_true_iff_eq. rewrite chosen_iff. unfold same_partition. rewrite H1, H2. simpl.
    destruct (part r') as [p|]; [|split; [discriminate|intros [H _]; discriminate]].
    destruct (cond r') as [[]|]; simpl; rewrite ?andb_true_r, ?andb_false_r; (split; [intros H; try discriminate; apply key_eqb_eq in H; subst; auto|intros [Ha Hb]; try discriminate; injection Ha as ->; apply key_eqb_refl]).
  Qed.
  Lemma chosen_joins r r' : chosen r = true -> joins part cond r r' = chosen r'.
  Proof.
    intros H. rewrite <- (chosen_same r r' H). apply chosen_iff in H. destruct H as [H1 H2]. unfold joins, same_partition. rewrite H1, H2.
    destruct (part r'), (cond r'); simpl; auto. now rewrite andb_false_r.
  Qed.
  Lemma joins_chosen r r' : joins part cond r r' = true -> chosen r' = true -> chosen r = true.
  Proof.
    unfold joins. intros H H'. apply chosen_iff in H'. destruct H' as [H1 H2]. rewrite H1, H2 in H. apply chosen_iff.
    destruct (part r); [|discriminate]. destruct (cond r); [|discriminate]. apply andb_true_iff in H. destruct H as [Ha Hb].
    apply key_eqb_eq in Ha. apply Bool.eqb_prop in Hb. subst. auto.
  Qed.
  Lemma numbered t : forall seen, filter (fun b => chosen (fst b)) (number_from part cond seen t) =
    combine (filter chosen t) (seq (S (List.length (filter chosen seen))) (List.length (filter chosen t))).
  Proof.
    induction t as [|r t IH]; intros seen; [reflexivity|]. cbn [number_from filter fst]. rewrite IH.
    cbn [filter]. destruct (chosen r) eqn:E; cbn [List.length seq combine].
    - f_equal. f_equal. f_equal. f_equal. apply filter_ext. intros r'. now apply chosen_same.
    - reflexivity.
  Qed.
  Lemma find_numbered (L : list A) m : forall s, (s <= m)%Z ->
    List.map fst (filter (fun b => Z.eqb (Z.of_nat (snd b)) m) (combine L (seq (Z.to_nat s) (List.length L)))) =
    match nth_error L (Z.to_nat (m - s)) with Some x => [x] | None => [] end \/ (s < 0)%Z.
  Proof.
    induction L as [|y L IH]; intros s H.
    - left. cbn. destruct (Z.to_nat (m - s)); reflexivity.
    - destruct (Z_lt_dec s 0); [auto|]. left. cbn [List.length seq combine filter snd].
      rewrite Z2Nat.id by lia. destruct (Z.eqb_spec s m) as [->|N].
      + rewrite Z.sub_diag. cbn [Z.to_nat nth_error List.map fst]. f_equal.
        assert (E : forall a, (m < Z.of_nat a)%Z -> List.map fst (filter (fun b : A * nat => Z.eqb (Z.of_nat (snd b)) m) (combine L (seq a (List.length L)))) = []).
        { clear. induction L as [|y L IH]; intros a Ha; [reflexivity|]. cbn [List.length seq combine filter snd].
          destruct (Z.eqb_spec (Z.of_nat a) m); [lia|]. apply IH. lia. }
        apply E. lia.
      + destruct (IH (s + 1)%Z) as [E|E]; [lia| |lia].
        replace (Z.to_nat (s + 1)) with (S (Z.to_nat s)) in E by lia. rewrite E.
        replace (Z.to_nat (m - s)) with (S (Z.to_nat (m - (s + 1)))) by lia. reflexivity.
  Qed.
  (** The random numbers of the rows of the slice. *)
  Definition slice_positions (t : list A) : list nat := List.map fst (filter (fun jr => chosen (snd jr)) (combine (seq 0 (List.length t)) t)).
  Definition draws (i : nat) (t : list A) : list nat :=
    List.map (fun j => Z.to_nat (ceiling (rand i j * INR (List.length (filter chosen t))) - 1)) (slice_positions t).

  Lemma match_chosen t a m : chosen a = true -> (1 <= m)%Z ->
    List.map fst (filter (fun b => joins part cond a (fst b) && Z.eqb (Z.of_nat (snd b)) m) (row_numbers part cond t)) =
    match nth_error (filter chosen t) (Z.to_nat (m - 1)) with Some x => [x] | None => [] end.
  Proof.
    intros H Hm.
    assert (E : filter (fun b => joins part cond a (fst b) && Z.eqb (Z.of_nat (snd b)) m) (row_numbers part cond t) =
                filter (fun b => Z.eqb (Z.of_nat (snd b)) m) (filter (fun b => chosen (fst b)) (row_numbers part cond t))).
    { rewrite filter_filter. apply filter_ext. intros b. now rewrite chosen_joins. }
    rewrite E. unfold row_numbers. rewrite numbered. cbn [filter List.length].
    destruct (find_numbered (filter chosen t) m 1 Hm) as [F|F]; [exact F|lia].
  Qed.
  Lemma slice_result i t : (forall j, (0 < rand i j <= 1)%R) ->
    filter in_slice (bootstrap_by_row part cond rand i t) = pick (filter chosen t) (draws i t).
  Proof.
    intros HR. unfold bootstrap_by_row. rewrite filter_filter.
    rewrite (filter_ext _ chosen) by (intros r; unfold chosen; apply andb_comm).
    unfold joined. rewrite filter_flat_map. unfold random_rows. rewrite flat_map_map. cbn [fst snd].
    unfold draws, slice_positions, pick. rewrite !flat_map_map.
    set (n := List.length (filter chosen t)).
    assert (Hn : forall p, In p (combine (seq 0 (List.length t)) t) -> chosen (snd p) = true -> (0 < n)%nat).
    { intros [j r] Hp Hc. simpl in Hc. apply in_combine_r in Hp. unfold n.
      assert (In r (filter chosen t)) by (apply filter_In; auto). destruct (filter chosen t); [contradiction|simpl; lia]. }
    induction (combine (seq 0 (List.length t)) t) as [|[j r] l IH]; [reflexivity|].
    cbn [flat_map filter fst snd].
    assert (Hl : forall p, In p l -> chosen (snd p) = true -> (0 < n)%nat) by (intros p Hp; apply Hn; right; exact Hp).
    destruct (chosen r) eqn:E.
    - cbn [flat_map fst]. rewrite (IH Hl). f_equal.
      assert (L : List.length (filter (same_partition part cond r) t) = n) by (unfold n; f_equal; apply filter_ext; intros r'; now apply chosen_same).
      rewrite L. destruct (ceiling_bounds n (rand i j)) as [B1 B2]; try apply HR; [apply (Hn (j, r)); simpl; auto|].
      rewrite match_chosen by auto.
      destruct (nth_error (filter chosen t) _) as [y|] eqn:NE; [|reflexivity].
      apply nth_error_In in NE. apply filter_In in NE. destruct NE as [_ NE]. cbn [filter]. now rewrite NE.
    - rewrite (IH Hl).
      match goal with |- ?a ++ ?b = _ => assert (Z : a = []) end; [|now rewrite Z].
      match goal with |- filter chosen ?l = [] => assert (F : Forall (fun y => chosen y = false) l) end.
      { apply Forall_forall. intros y Hy. apply in_map_iff in Hy. destruct Hy as [[y' m'] [<- Hy]]. apply filter_In in Hy. destruct Hy as [_ Hy].
        apply andb_true_iff in Hy. destruct Hy as [Hy _]. cbn [fst] in *. destruct (chosen y') eqn:C; auto.
        rewrite (joins_chosen _ _ Hy C) in E. discriminate. }
      induction F as [|y ys Hy F IH2]; [reflexivity|]. cbn [filter]. now rewrite Hy.
  Qed.
  Lemma positions_length (t : list A) : List.length (slice_positions t) = List.length (filter chosen t).
  Proof.
    unfold slice_positions. rewrite map_length. generalize 0%nat. induction t as [|r t IH]; intros s; [reflexivity|].
    cbn [List.length seq combine filter snd]. destruct (chosen r); cbn [List.length]; now rewrite IH.
  Qed.
  Lemma draws_valid i t : (forall j, (0 < rand i j <= 1)%R) ->
    List.length (draws i t) = List.length (filter chosen t) /\ Forall (fun d => (d < List.length (filter chosen t))%nat) (draws i t).
  Proof.
    intros HR. unfold draws. rewrite map_length, positions_length. split; [reflexivity|].
    apply Forall_forall. intros d Hd. apply in_map_iff in Hd. destruct Hd as [j [<- Hj]].
    assert (N : (0 < List.length (filter chosen t))%nat) by (rewrite <- positions_length; destruct (slice_positions t); [destruct Hj|simpl; lia]).
    destruct (ceiling_bounds (List.length (filter chosen t)) (rand i j)) as [B1 B2]; try apply HR; auto. lia.
  Qed.
End ByRow.

(** *** The Poisson cutoffs *)
Open Scope R_scope.
Lemma case_weight_spec cs : forall k u, (k <= case_weight k cs u <= k + List.length cs)%nat.
Proof. induction cs as [|c cs IH]; intros k u; simpl; [lia|]. destruct (Rle_dec u c); [lia|]. specialize (IH (S k) u). lia. Qed.

Definition inv_fact (n : nat) : R := / INR (fact n).
Lemma inv_fact_S n : inv_fact (S n) = inv_fact n / INR (S n).
Proof.
  unfold inv_fact. rewrite fact_simpl, mult_INR. unfold Rdiv. rewrite Rinv_mult. lra.
Qed.
Lemma inv_fact_pos n : 0 < inv_fact n. Proof. apply Rinv_0_lt_compat. apply lt_0_INR, lt_O_fact. Qed.
Lemma inv_fact_decreasing : Un_decreasing inv_fact.
Proof.
  intros n. rewrite inv_fact_S. pose proof (inv_fact_pos n). assert (1 <= INR (S n)) by (rewrite S_INR; pose proof (pos_INR n); lra).
  apply Rmult_le_reg_r with (INR (S n)); [lra|]. unfold Rdiv. rewrite Rmult_assoc, Rinv_l by lra. nra.
Qed.
Lemma inv_fact_cv : Un_cv inv_fact 0.
Proof.
  intros eps He. pose proof (cv_speed_pow_fact 1 eps He) as [N H]. exists N. intros n Hn. specialize (H n Hn).
  rewrite pow1 in H. unfold inv_fact. unfold Rdiv in H. now rewrite Rmult_1_l in H.
Qed.
Lemma exp_m1_cv : Un_cv (fun N => sum_f_R0 (tg_alt inv_fact) N) (exp (-1)).
Proof.
  pose proof (proj2_sig (exist_exp (-1))) as H. fold (exp (-1)) in H. intros eps He. destruct (H eps He) as [N HN]. exists N. intros n Hn. specialize (HN n Hn).
  replace (sum_f_R0 (tg_alt inv_fact) n) with (sum_f_R0 (fun i => / INR (fact i) * (-1) ^ i) n); [exact HN|].
  apply sum_eq. intros i _. unfold tg_alt, inv_fact. lra.
Qed.
Lemma exp_m1_bounds : sum_f_R0 (tg_alt inv_fact) 21 <= exp (-1) <= sum_f_R0 (tg_alt inv_fact) 20.
Proof. apply (alternated_series_ineq inv_fact (exp (-1)) 10 inv_fact_decreasing inv_fact_cv exp_m1_cv). Qed.
Lemma inv_fact_values : inv_fact 0 = 1 /\ inv_fact 1 = 1 /\ inv_fact 2 = /2 /\ inv_fact 3 = /6 /\ inv_fact 4 = /24 /\ inv_fact 5 = /120 /\
  inv_fact 6 = /720 /\ inv_fact 7 = /5040 /\ inv_fact 8 = /40320 /\ inv_fact 9 = /362880 /\ inv_fact 10 = /3628800 /\ inv_fact 11 = /39916800 /\
  inv_fact 12 = /479001600 /\ inv_fact 13 = /6227020800 /\ inv_fact 14 = /87178291200 /\ inv_fact 15 = /1307674368000 /\ inv_fact 16 = /20922789888000 /\
  inv_fact 17 = /355687428096000 /\ inv_fact 18 = /6402373705728000 /\ inv_fact 19 = /121645100408832000 /\ inv_fact 20 = /2432902008176640000 /\ inv_fact 21 = /51090942171709440000.
Proof.
  assert (Z : inv_fact 0 = 1) by (unfold inv_fact; simpl; lra).
  assert (ST : forall n a, inv_fact n = / a -> inv_fact (S n) = / (IZR (Z.of_nat (S n)) * a)).
  { intros n a E. rewrite inv_fact_S, E, INR_IZR_INZ. unfold Rdiv. rewrite Rinv_mult. lra. }
  assert (Z' : inv_fact 0 = / 1) by lra.
  pose proof (ST _ _ Z') as H1. pose proof (ST _ _ H1) as H2. pose proof (ST _ _ H2) as H3. pose proof (ST _ _ H3) as H4. pose proof (ST _ _ H4) as H5.
  pose proof (ST _ _ H5) as H6. pose proof (ST _ _ H6) as H7. pose proof (ST _ _ H7) as H8. pose proof (ST _ _ H8) as H9. pose proof (ST _ _ H9) as H10.
  pose proof (ST _ _ H10) as H11. pose proof (ST _ _ H11) as H12. pose proof (ST _ _ H12) as H13. pose proof (ST _ _ H13) as H14. pose proof (ST _ _ H14) as H15.
  pose proof (ST _ _ H15) as H16. pose proof (ST _ _ H16) as H17. pose proof (ST _ _ H17) as H18. pose proof (ST _ _ H18) as H19. pose proof (ST _ _ H19) as H20. pose proof (ST _ _ H20) as H21.
  cbn [Z.of_nat Pos.of_succ_nat Pos.succ] in *. clear ST.
  repeat split; try (rewrite Z; lra); match goal with |- ?a = _ => match goal with H : a = _ |- _ => rewrite H; f_equal; lra end end.
Qed.
Lemma exp_m1_tight : 0.3678794411714423 <= exp (-1) <= 0.3678794411714424.
Proof.
  destruct exp_m1_bounds as [A B]. cbn [sum_f_R0] in A, B. unfold tg_alt in A, B.
  destruct inv_fact_values as (E0 & E1 & E2 & E3 & E4 & E5 & E6 & E7 & E8 & E9 & E10 & E11 & E12 & E13 & E14 & E15 & E16 & E17 & E18 & E19 & E20 & E21).
  rewrite E0, E1, E2, E3, E4, E5, E6, E7, E8, E9, E10, E11, E12, E13, E14, E15, E16, E17, E18, E19, E20, ?E21 in *.
  simpl pow in A, B. split; lra.
Qed.

(** *** The cutoffs against the distribution *)
Fixpoint poisson_cdf (k : nat) : R :=
  match k with O => exp (-1) / INR (fact 0) | S j => poisson_cdf j + exp (-1) / INR (fact k) end.
Definition all_cutoffs : list R := cutoff0 :: cutoffs.
Lemma cdf_term k : exp (-1) / INR (fact k) = exp (-1) * inv_fact k. Proof. reflexivity. Qed.
Ltac cdf_close := cbn [poisson_cdf]; rewrite !cdf_term;
  destruct inv_fact_values as (E0 & E1 & E2 & E3 & E4 & E5 & E6 & E7 & E8 & E9 & E10 & E11 & E12 & E13 & E14 & E15 & E16 & E17 & _);
  rewrite ?E0, ?E1, ?E2, ?E3, ?E4, ?E5, ?E6, ?E7, ?E8, ?E9, ?E10, ?E11, ?E12, ?E13, ?E14, ?E15, ?E16, ?E17;
  pose proof exp_m1_tight as [? ?]; split; lra.
Lemma cutoff_close k c : nth_error all_cutoffs k = Some c -> - 1e-15 <= c - poisson_cdf k <= 1e-15.
Proof.
  intros H. do 18 (destruct k as [|k]; [injection H as <-; unfold cutoff0; cdf_close|]).
  destruct k; discriminate.
Qed.
Lemma case_weight_gt cs : forall k u j, StronglySorted Rlt cs ->
  (k + j <= case_weight k cs u)%nat <-> (j <= List.length cs)%nat /\ (forall i c, (i < j)%nat -> nth_error cs i = Some c -> c < u).
Proof.
  induction cs as [|c cs IH]; intros k u j HS.
  - simpl. split.
    + intros H. split; [lia|]. intros i c Hi. lia.
    + intros [H _]. lia.
  - cbn [case_weight List.length]. inversion HS as [|? ? HS' HF]; subst. destruct (Rle_dec u c) as [L|N].
    + split.
      * intros H. assert (j = 0)%nat by lia. subst. split; [lia|]. intros; lia.
      * intros [_ H]. destruct j as [|j]; [lia|]. specialize (H 0%nat c). simpl in H. assert (c < u) by (apply H; [lia|reflexivity]). lra.
    + destruct j as [|j].
      * split; intros; [split; [lia|intros; lia]|]. pose proof (case_weight_spec cs (S k) u). lia.
      * replace (k + S j)%nat with (S k + j)%nat by lia. rewrite IH by assumption. split; intros [H1 H2]; (split; [lia|]).
        -- intros [|i] c' Hi E; [injection E as <-; lra|]. apply (H2 i); [lia|exact E].
        -- intros i c' Hi E. apply (H2 (S i)); [lia|exact E].
Qed.
Lemma cutoffs_sorted : StronglySorted Rlt all_cutoffs.
Proof. unfold all_cutoffs, cutoff0, cutoffs. repeat (constructor; [|repeat (constructor; [lra|]); constructor]). constructor. Qed.
Lemma weight_at_least k u : (1 <= k)%nat -> (k <= poisson_weight u)%nat <-> exists c, nth_error all_cutoffs (k - 1) = Some c /\ c < u.
Proof.
  intros Hk. pose proof cutoffs_sorted as HS. inversion HS as [|? ? HS' HF]; subst. unfold poisson_weight. destruct k as [|k]; [lia|].
  replace (S k - 1)%nat with k by lia. clear Hk. destruct (Rlt_dec cutoff0 u) as [L|N].
  - replace (S k) with (1 + k)%nat by lia. rewrite case_weight_gt by assumption. split.
    + intros [H1 H2]. destruct k as [|k]; [exists cutoff0; auto|]. destruct (nth_error cutoffs k) as [c|] eqn:E.
      * exists c. split; [exact E|]. apply (H2 k); [lia|exact E].
      * apply nth_error_None in E. lia.
    + intros [c [E Hc]]. split.
      * assert (k < List.length all_cutoffs)%nat by (apply nth_error_Some; congruence). unfold all_cutoffs in H. simpl List.length in H. simpl List.length. lia.
      * intros i c' Hi E'. destruct k as [|k]; [lia|]. change (nth_error cutoffs k = Some c) in E.
        destruct (Nat.eq_dec i k) as [->|Hne]; [congruence|].
        assert (c' < c); [|lra]. clear -HS' E E' Hi Hne. revert i k HS' E E' Hi Hne. generalize cutoffs. induction l as [|y l IH]; intros i k HS E E' Hi Hne; [destruct i; discriminate|].
        inversion HS as [|? ? HS' HF]; subst. destruct k as [|k]; [lia|]. simpl in E. destruct i as [|i].
        -- injection E' as <-. rewrite Forall_forall in HF. apply HF. eapply nth_error_In; eauto.
        -- apply (IH i k); auto; lia.
  - split; [lia|]. intros [c [E Hc]]. exfalso. apply N. destruct k as [|k]; [injection E as <-; exact Hc|].
    rewrite Forall_forall in HF. assert (cutoff0 < c) by (apply HF; eapply nth_error_In; exact E). lra.
Qed.
Lemma weight_exactly k u : poisson_weight u = k <->
  (match k with O => True | S j => exists c, nth_error all_cutoffs j = Some c /\ c < u end) /\
  (forall c, nth_error all_cutoffs k = Some c -> u <= c) /\ (k <= 18)%nat.
Proof.
  assert (B : (poisson_weight u <= 18)%nat).
  { unfold poisson_weight. destruct (Rlt_dec _ _); [|lia]. pose proof (case_weight_spec cutoffs 1 u) as H. cbn [List.length cutoffs] in H. lia. }
  split.
  - intros <-. split; [|split; [|exact B]].
    + destruct (poisson_weight u) as [|j] eqn:E; [exact I|]. destruct (proj1 (weight_at_least (S j) u ltac:(lia))) as [c Hc]; [lia|]. exists c. now replace (S j - 1)%nat with j in Hc by lia.
    + intros c Hc. destruct (Rle_dec u c) as [|N]; auto. exfalso.
      assert (S (poisson_weight u) <= poisson_weight u)%nat; [|lia]. apply weight_at_least; [lia|]. exists c. split; [|lra].
      now replace (S (poisson_weight u) - 1)%nat with (poisson_weight u) by lia.
  - intros [H1 [H2 H3]]. apply Nat.le_antisymm.
    + destruct (Nat.le_gt_cases (poisson_weight u) k) as [|H]; auto. exfalso.
      destruct (proj1 (weight_at_least (S k) u ltac:(lia))) as [c [E Hc]]; [lia|]. replace (S k - 1)%nat with k in E by lia. specialize (H2 c E). lra.
    + destruct k as [|j]; [lia|]. apply weight_at_least; [lia|]. now replace (S j - 1)%nat with j by lia.
Qed.

(** *** By unit *)
Section ByUnit.
  Context {A : Type}.
  Variables (part : A -> option (list string)) (unit : A -> option string) (cond : A -> option bool) (rand : nat -> nat -> R).
  Variable k : list string.
  Notation cpart := (fun c : candidate => fst c).
  Definition slice_candidates (t : list A) : list candidate := filter (chosen cpart (fun _ => Some true) k) (candidates part unit cond t).
  Lemma of_candidate_slice c r : of_candidate part unit c r = true -> in_slice part k r = in_slice cpart k c.
  Proof.
    unfold of_candidate, in_slice. destruct c as [[p|] [u|]]; try discriminate. simpl. destruct (part r) as [p'|]; [|discriminate].
    destruct (unit r); [|discriminate]. rewrite andb_true_iff, key_eqb_eq. intros [-> _]. reflexivity.
  Qed.
  Lemma unit_slice i t : (forall j, (0 < rand i j <= 1)%R) ->
    filter (in_slice part k) (bootstrap_by_unit part unit cond rand i t) =
    flat_map (fun c => filter (fun r => of_candidate part unit c r && is_true (cond r)) t)
             (pick (slice_candidates t) (draws cpart (fun _ => Some true) rand k i (candidates part unit cond t))).
  Proof.
    intros HR. unfold slice_candidates. rewrite <- (slice_result cpart (fun _ => Some true) rand k i (candidates part unit cond t) HR).
    unfold bootstrap_by_unit. rewrite filter_flat_map. induction (bootstrap_by_row _ _ rand i _) as [|c l IH]; [reflexivity|].
    cbn [flat_map filter]. rewrite IH.
    assert (E : filter (in_slice part k) (filter (fun r => of_candidate part unit c r && is_true (cond r)) t) =
                if in_slice cpart k c then filter (fun r => of_candidate part unit c r && is_true (cond r)) t else []).
    { clear. induction t as [|r t IH]; [now destruct (in_slice cpart k c)|]. cbn [filter].
      destruct (of_candidate part unit c r) eqn:E; simpl; [|exact IH].
      destruct (is_true (cond r)); [|exact IH]. cbn [filter]. rewrite (of_candidate_slice _ _ E), IH. destruct (in_slice cpart k c); reflexivity. }
    rewrite E. destruct (in_slice cpart k c); reflexivity.
  Qed.
End ByUnit.
Lemma ceiling_iff x z : ceiling x = z <-> IZR z - 1 < x <= IZR z.
Proof.
  unfold ceiling. destruct (base_Int_part (- x)) as [A B]. set (y := Int_part (- x)) in *. split.
  - intros <-. rewrite opp_IZR. lra.
  - intros [H1 H2]. assert (y < - z + 1)%Z by (apply lt_IZR; rewrite plus_IZR, opp_IZR; lra).
    assert (- z - 1 < y)%Z; [|lia]. apply lt_IZR. rewrite minus_IZR, opp_IZR. lra.
Qed.
Lemma draw_interval n u d : (0 < n)%nat -> 0 < u <= 1 ->
  Z.to_nat (ceiling (u * INR n) - 1) = d <-> INR d / INR n < u <= INR (S d) / INR n.
Proof.
  intros Hn Hu. pose proof (ceiling_bounds n u (proj1 Hu) (proj2 Hu) Hn) as Hb. apply lt_INR in Hn. simpl in Hn.
  assert (E : Z.to_nat (ceiling (u * INR n) - 1) = d <-> ceiling (u * INR n) = Z.of_nat (S d)) by lia.
  rewrite E, ceiling_iff, <- INR_IZR_INZ, S_INR.
  replace (INR d + 1 - 1) with (INR d) by lra.
  assert (D : forall a, a / INR n * INR n = a) by (intros; field; lra).
  split; intros [H1 H2]; split.
  - apply Rmult_lt_reg_r with (INR n); [lra|]. now rewrite D.
  - apply Rmult_le_reg_r with (INR n); [lra|]. now rewrite D.
  - apply Rmult_lt_compat_r with (r := INR n) in H1; [|lra]. now rewrite D in H1.
  - apply Rmult_le_compat_r with (r := INR n) in H2; [|lra]. now rewrite D in H2.
Qed.
Lemma in_map_iff_inj {A B} (f : A -> B) l x : (forall a b, f a = f b -> a = b) -> In (f x) (List.map f l) <-> In x l.
Proof. intros H. rewrite in_map_iff. split; [intros [y [E Hy]]; apply H in E; congruence|intros Hx; exists x; auto]. Qed.
Section Units.
  Context {A : Type}.
  Variables (part : A -> option (list string)) (unit : A -> option string) (cond : A -> option bool) (k : list string).
  Lemma slice_candidates_units t : (forall r, In r t -> chosen part cond k r = true -> unit r <> None) ->
    exists us, slice_candidates part unit cond k t = List.map (fun u => (Some k, Some u)) us /\ NoDup us /\
      (forall u, In u us <-> exists r, In r t /\ chosen part cond k r = true /\ unit r = Some u).
  Proof.
    intros H.
    assert (ND : NoDup (slice_candidates part unit cond k t)) by (apply NoDup_filter, NoDup_nodup).
    assert (IN : forall c, In c (slice_candidates part unit cond k t) <-> fst c = Some k /\ exists r, In r t /\ chosen part cond k r = true /\ unit r = snd c).
    { intros [p u]. unfold slice_candidates. rewrite filter_In, chosen_iff. unfold candidates. rewrite nodup_In, in_map_iff. cbn [fst snd]. split.
      - intros [[r [E Hr]] [-> _]]. apply filter_In in Hr. injection E as E1 E2. split; auto. exists r. split; [tauto|]. split; auto. apply chosen_iff. split; auto.
        destruct Hr as [_ Hr]. unfold is_true in Hr. destruct (cond r) as [[]|]; congruence.
      - intros [-> [r [Hr [Hc Hu]]]]. split; auto. exists r. apply chosen_iff in Hc. destruct Hc as [H1 H2]. split; [congruence|]. apply filter_In. rewrite H2. auto. }
    revert ND IN. generalize (slice_candidates part unit cond k t). intros l ND IN.
    exists (List.map (fun c => match snd c with Some u => u | None => EmptyString end) l).
    assert (E : List.map (fun u => (Some k, Some u)) (List.map (fun c : candidate => match snd c with Some u => u | None => EmptyString end) l) = l).
    { rewrite List.map_map. rewrite <- List.map_id. apply map_ext_in. intros [p u] Hc. destruct (proj1 (IN _) Hc) as [E [r [H1 [H2 H3]]]]. cbn [fst snd] in *. subst p.
      destruct u; [reflexivity|]. destruct (H r H1 H2 H3). }
    split; [symmetry; exact E|]. split.
    - rewrite <- E in ND. exact (NoDup_map_inv _ _ ND).
    - intros u. rewrite <- (in_map_iff_inj (fun u => (Some k, Some u)) _ u) by (intros ? ? X; now injection X).
      etransitivity; [erewrite f_equal with (f := In _) by exact E; apply IN|]. cbn [fst snd]. split; [intros [_ X]; exact X|auto].
  Qed.
End Units.
