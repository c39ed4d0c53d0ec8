(** C53, C55: the resampling queries of Bootstrap and PoissonBootstrap. *)
From Coq Require Import Reals List Bool String Arith ZArith Lia Lra.
From Verif Require Import M_Frame M_Bootstrap M_BootSql L_Frame L_BootSql.
Import ListNotations.
Open Scope list_scope.
Open Scope nat_scope.

(** The rows of slice k that pass the filter. *)
Definition slice_rows {A} (part : A -> option (list string)) (cond : A -> option bool) (k : list string) (t : list A) : list A :=
  filter (fun r => match part r with Some p => key_eqb p k | None => false end && match cond r with Some true => true | _ => false end) t.
(** The rows at the given positions. *)
Definition rows_at {A} (l : list A) (ds : list nat) : list A := flat_map (fun d => match nth_error l d with Some x => [x] | None => [] end) ds.
(** [ds] is a draw of n out of n with replacement, and the random number of the j-th member decides it: it
    draws position d exactly when it lies in (d/n, (d+1)/n]. *)
Definition uniform_draw (n : nat) (us : list R) (ds : list nat) : Prop :=
  List.length us = n /\ Forall2 (fun u d => d < n /\ (INR d / INR n < u <= INR (S d) / INR n)%R) us ds.

(** C53, by row: for all random numbers in (0, 1] the slice of the i-th resample consists of n rows of the
    slice of the table, n the number of rows of the slice passing the filter, drawn uniformly with replacement by
    the random numbers of those rows. *)
Theorem C53_by_row : forall {A} (part : A -> option (list string)) (cond : A -> option bool) rand i (t : list A) k,
  (forall j, 0 < rand i j <= 1)%R ->
  let js := List.map fst (filter (fun jr => match part (snd jr) with Some p => key_eqb p k | None => false end && match cond (snd jr) with Some true => true | _ => false end)
                                 (combine (seq 0 (List.length t)) t)) in
  exists ds, uniform_draw (List.length (slice_rows part cond k t)) (List.map (rand i) js) ds /\
    filter (fun r => match part r with Some p => key_eqb p k | None => false end) (bootstrap_by_row part cond rand i t) =
    rows_at (slice_rows part cond k t) ds.
Proof.
  intros A part cond rand i t k HR js. exists (draws part cond rand k i t). split.
  - split; [rewrite map_length; apply (positions_length part cond k t)|].
    assert (L := positions_length part cond k t). destruct (draws_valid part cond rand k i t HR) as [_ HF]. unfold draws in HF |- *.
    change js with (slice_positions part cond k t). change (slice_rows part cond k t) with (filter (chosen part cond k) t).
    revert HF. rewrite <- L. assert (P : Forall (fun _ => 0 < List.length (slice_positions part cond k t)) (slice_positions part cond k t)).
    { apply Forall_forall. intros j Hj. destruct (slice_positions part cond k t); [destruct Hj|simpl; lia]. }
    revert P. generalize (List.length (slice_positions part cond k t)). intros n. clear L. induction (slice_positions part cond k t) as [|j l IH]; intros P HF; [constructor|].
    inversion P as [|? ? P1 P2]; subst. cbn [List.map] in HF |- *. inversion HF as [|? ? F1 F2]; subst. constructor; [|apply IH; [exact P2|exact F2]]. split; [exact F1|]. apply draw_interval; auto.
  - exact (slice_result part cond rand k i t HR).
Qed.
Print Assumptions C53_by_row.
(** Every draw of the slice is the outcome of some random numbers. *)
Theorem C53_every_draw_is_possible : forall {A} (part : A -> option (list string)) (cond : A -> option bool) i (t : list A) k ds,
  let n := List.length (slice_rows part cond k t) in
  List.length ds = n -> Forall (fun d => d < n) ds ->
  exists rand, (forall j, 0 < rand i j <= 1)%R /\
    filter (fun r => match part r with Some p => key_eqb p k | None => false end) (bootstrap_by_row part cond rand i t) = rows_at (slice_rows part cond k t) ds.
Proof.
  intros A part cond i t k ds n HL HF.
  set (js := slice_positions part cond k t).
  set (u := fun j => match find (fun jd => Nat.eqb (fst jd) j) (combine js ds) with Some jd => (INR (S (snd jd)) / INR n)%R | None => 1%R end).
  exists (fun _ j => u j).
  assert (U : forall j, (0 < u j <= 1)%R).
  { intros j. unfold u. destruct (find _ _) as [[j' d]|] eqn:E; [|lra]. apply find_some in E. destruct E as [E _]. apply in_combine_r in E.
    rewrite Forall_forall in HF. apply HF in E. simpl snd. assert (0 < INR n)%R by (apply lt_0_INR; lia). assert (INR (S d) <= INR n)%R by (apply le_INR; lia).
    assert (0 < INR (S d))%R by (apply lt_0_INR; lia). split; [apply Rdiv_lt_0_compat; lra|]. apply Rmult_le_reg_r with (INR n); [lra|]. unfold Rdiv. rewrite Rmult_assoc, Rinv_l by lra. lra. }
  split; [exact U|]. etransitivity; [exact (slice_result part cond _ k i t U)|].
  change (pick (filter (chosen part cond k) t)) with (rows_at (slice_rows part cond k t)). f_equal.
  unfold draws. fold js. change (List.length (filter (chosen part cond k) t)) with n.
  assert (HJ : List.length js = List.length ds) by (rewrite HL; apply positions_length).
  assert (ND : NoDup js).
  { unfold js, slice_positions. generalize (seq_NoDup (List.length t) 0). generalize (seq 0 (List.length t)). clear. induction t as [|r t IH]; intros [|j l] H; try constructor.
    inversion H; subst. cbn [combine filter snd]. destruct (chosen part cond k r); [|apply IH; auto]. cbn [List.map fst]. constructor; [|apply IH; auto].
    intros X. apply in_map_iff in X. destruct X as [[j' r'] [<- X]]. apply filter_In in X. destruct X as [X _]. apply in_combine_l in X. auto. }
  assert (E : forall j d, In (j, d) (combine js ds) -> Z.to_nat (ceiling (u j * INR n) - 1) = d).
  { intros j d Hjd. assert (Hd : d < n) by (rewrite Forall_forall in HF; apply HF; eapply in_combine_r; eauto).
    apply draw_interval; [lia|apply U|].
    assert (Uj : u j = (INR (S d) / INR n)%R).
    { unfold u. assert (X : find (fun jd => Nat.eqb (fst jd) j) (combine js ds) = Some (j, d)); [|now rewrite X].
      clear u U HL HF HJ Hd. clearbody js. revert ds Hjd. induction js as [|x l IH]; intros ds Hjd; [destruct Hjd|]. destruct ds as [|y ds]; [destruct Hjd|]. inversion ND; subst. cbn [combine find fst].
      destruct Hjd as [E|Hjd]; [injection E as -> ->; now rewrite Nat.eqb_refl|]. destruct (Nat.eqb_spec x j) as [->|]; [exfalso; apply in_combine_l in Hjd; auto|]. now apply IH. }
    rewrite Uj. split; [|lra]. unfold Rdiv. apply Rmult_lt_compat_r; [apply Rinv_0_lt_compat, lt_0_INR; lia|]. apply lt_INR. lia. }
  clearbody u. clear HL HF. revert HJ E. clear -u. clearbody js. revert ds. induction js as [|j l IH]; intros [|d ds] HJ E; try discriminate; [reflexivity|]. cbn [List.map]. f_equal.
  - apply E. now left.
  - apply IH; [simpl in HJ; lia|]. intros j' d' X. apply E. now right.
Qed.
Print Assumptions C53_every_draw_is_possible.

(** C53, by unit, when the unit is not NULL: the units of the slice (each once) are drawn uniformly with
    replacement, and each drawn unit brings all its rows of the slice that pass the filter. *)
Theorem C53_by_unit : forall {A} (part : A -> option (list string)) (unit : A -> option string) (cond : A -> option bool) rand i (t : list A) k,
  (forall j, 0 < rand i j <= 1)%R ->
  (forall r, In r (slice_rows part cond k t) -> unit r <> None) ->
  exists us ds, NoDup us /\ (forall u, In u us <-> exists r, In r (slice_rows part cond k t) /\ unit r = Some u) /\
    List.length ds = List.length us /\ Forall (fun d => d < List.length us) ds /\
    filter (fun r => match part r with Some p => key_eqb p k | None => false end) (bootstrap_by_unit part unit cond rand i t) =
    flat_map (fun u => filter (fun r => match unit r with Some u' => String.eqb u u' | None => false end) (slice_rows part cond k t)) (rows_at us ds).
Proof.
  intros A part unit cond rand i t k HR HU.
  destruct (slice_candidates_units part unit cond k t) as [us [E [ND HI]]]; [intros r H1 H2; apply HU; apply filter_In; auto|].
  exists us, (draws (fun c : candidate => fst c) (fun _ => Some true) rand k i (candidates part unit cond t)).
  destruct (draws_valid (fun c : candidate => fst c) (fun _ => Some true) rand k i (candidates part unit cond t) HR) as [V1 V2].
  fold (slice_candidates part unit cond k t) in V1, V2. rewrite E, map_length in V1, V2. repeat split; auto.
  - intros H. apply HI in H. destruct H as [r [H1 [H2 H3]]]. exists r. split; auto. apply filter_In. auto.
  - intros [r [H1 H2]]. apply filter_In in H1. apply HI. exists r. tauto.
  - etransitivity; [exact (unit_slice part unit cond rand k i t HR)|]. rewrite E, L_Bootstrap.pick_map, L_Bootstrap.flat_map_map.
    apply flat_map_ext. intros u. unfold slice_rows. rewrite L_Jackknife.filter_filter. apply filter_ext. intros r. unfold of_candidate, is_true.
    destruct (part r) as [p|]; [|reflexivity]. destruct (unit r) as [u'|]; [|now rewrite andb_false_r].
    assert (S : key_eqb k p = key_eqb p k). { apply eq_true_iff_eq. rewrite !key_eqb_eq. split; congruence. }
    rewrite S. destruct (key_eqb p k), (String.eqb u u'), (cond r) as [[]|]; reflexivity.
Qed.
Print Assumptions C53_by_unit.

(** A NULL unit is counted among the candidates: a slice whose only unit is "a" can come back empty, while
    the units that a draw may use are just "a". *)
Theorem C53_null_unit_refuted : exists (t : list (option string)) rand,
  (forall i j, 0 < rand i j <= 1)%R /\ In (Some "a"%string) t /\
  bootstrap_by_unit (fun _ => Some []) (fun r => r) (fun _ => Some true) rand 0 t = [].
Proof.
  exists [None; Some "a"%string], (fun _ _ => /2)%R. split; [intros; lra|]. split; [simpl; auto|].
  assert (C : ceiling (/2 * (1 + 1)) = 1%Z) by (apply ceiling_iff; lra).
  unfold bootstrap_by_unit, bootstrap_by_row, joined, random_rows. cbn. rewrite C. reflexivity.
Qed.
Print Assumptions C53_null_unit_refuted.
(** RAND() may return 0; the row number 0 does not exist, the resample is one row short. *)
Theorem C53_rand_zero_refuted : exists (t : list nat) rand,
  (forall i j, 0 <= rand i j < 1)%R /\ t <> [] /\ bootstrap_by_row (fun _ => Some []) (fun _ => Some true) rand 0 t = [].
Proof.
  exists [7], (fun _ _ => 0)%R. split; [intros; lra|]. split; [discriminate|].
  assert (C : ceiling (0 * 1) = 0%Z) by (apply ceiling_iff; lra).
  unfold bootstrap_by_row, joined, random_rows. cbn. rewrite C. reflexivity.
Qed.
Print Assumptions C53_rand_zero_refuted.
Example C53_example : bootstrap_by_row (fun r : nat * string => Some [snd r]) (fun r => Some (negb (Nat.eqb (fst r) 9))) (fun _ _ => /2)%R 0
  [(1, "x"); (2, "y"); (9, "x"); (3, "x"); (4, "y")]%string = [(1, "x"); (2, "y"); (1, "x"); (2, "y")]%string.
Proof.
  assert (C1 : ceiling (/2 * 1) = 1%Z) by (apply ceiling_iff; lra).
  assert (C : ceiling (/2 * (1 + 1)) = 1%Z) by (apply ceiling_iff; lra).
  unfold bootstrap_by_row, joined, random_rows. cbn. rewrite C, C1. reflexivity.
Qed.

Open Scope R_scope.
(** The distribution function of Poisson(1) (L_BootSql.poisson_cdf): *)
Theorem C55_cdf_is_poisson : forall k, poisson_cdf k = sum_f_R0 (fun i => exp (-1) / INR (fact i)) k.
Proof. induction k as [|k IH]; [reflexivity|]. cbn [sum_f_R0]. rewrite <- IH. reflexivity. Qed.
Print Assumptions C55_cdf_is_poisson.
(** C55: there are 18 cutoffs c_0 < c_1 < ... < c_17; every number gets exactly one weight, u the weight k
    if and only if c_(k-1) < u <= c_k (no lower bound for 0, no upper bound for 18) ... *)
Theorem C55_weight : exists c : nat -> R, (forall i j, (i < j < 18)%nat -> c i < c j) /\
  (forall u, (poisson_weight u <= 18)%nat) /\
  (forall u k, (k <= 18)%nat -> (poisson_weight u = k <-> ((0 < k)%nat -> c (k - 1)%nat < u) /\ ((k < 18)%nat -> u <= c k))) /\
  (* ... and c_k is the probability of at most k, up to 1e-15 *)
  (forall k, (k < 18)%nat -> Rabs (c k - sum_f_R0 (fun i => exp (-1) / INR (fact i)) k) <= 1e-15).
Proof.
  exists (fun i => nth i all_cutoffs 1).
  assert (N : forall i, (i < 18)%nat -> nth_error all_cutoffs i = Some (nth i all_cutoffs 1)) by (intros i Hi; apply nth_error_nth'; exact Hi).
  assert (NN : forall i c, nth_error all_cutoffs i = Some c -> (i < 18)%nat /\ c = nth i all_cutoffs 1).
  { intros i c E. assert (i < List.length all_cutoffs)%nat by (apply nth_error_Some; congruence). change (List.length all_cutoffs) with 18%nat in H. split; [exact H|]. rewrite N in E by exact H. congruence. }
  split; [|split; [|split]].
  - intros i j [H1 H2]. pose proof (N i ltac:(lia)) as A. pose proof (N j H2) as B. revert A B. generalize (nth i all_cutoffs 1), (nth j all_cutoffs 1). intros a b A B.
    pose proof cutoffs_sorted as HS. revert HS A B. clear -H1. revert i j H1. generalize all_cutoffs. induction l as [|y l IH]; intros i j H1 HS A B; [destruct i; discriminate|].
    inversion HS as [|? ? HS' HF]; subst. destruct j as [|j]; [lia|]. destruct i as [|i].
    + injection A as <-. rewrite Forall_forall in HF. apply HF. eapply nth_error_In; exact B.
    + apply (IH i j); auto; lia.
  - intros u. apply (proj1 (weight_exactly _ u) eq_refl).
  - intros u k Hk. rewrite weight_exactly. split.
    + intros [H1 [H2 _]]. split.
      * intros Hp. destruct k as [|j]; [lia|]. destruct H1 as [c [E Hc]]. apply NN in E. destruct E as [_ ->]. now replace (S j - 1)%nat with j by lia.
      * intros Hp. apply H2. now apply N.
    + intros [H1 H2]. split; [|split; [|exact Hk]].
      * destruct k as [|j]; [exact I|]. exists (nth j all_cutoffs 1). split; [apply N; lia|]. specialize (H1 ltac:(lia)). now replace (S j - 1)%nat with j in H1 by lia.
      * intros c E. apply NN in E. destruct E as [H ->]. auto.
  - intros k Hk. rewrite <- C55_cdf_is_poisson. apply Rabs_le. pose proof (cutoff_close k _ (N k Hk)). lra.
Qed.
Print Assumptions C55_weight.
(** The length of the interval of weight k is the probability exp(-1)/k! of k, up to 2e-15. *)
Theorem C55_probabilities : forall k, (k <= 18)%nat -> exists a b, 0 <= a <= b /\ b <= 1 /\
  (forall u, 0 < u <= 1 -> (poisson_weight u = k <-> a < u <= b)) /\ Rabs (b - a - exp (-1) / INR (fact k)) <= 2e-15.
Proof.
  intros k Hk. exists (match k with O => 0 | S j => nth j all_cutoffs 1 end), (if Nat.eqb k 18 then 1 else nth k all_cutoffs 1).
  assert (W : forall u, 0 < u <= 1 -> poisson_weight u = k <-> match k with O => 0 | S j => nth j all_cutoffs 1 end < u <= if Nat.eqb k 18 then 1 else nth k all_cutoffs 1).
  { intros u Hu. rewrite weight_exactly. do 19 (destruct k as [|k]; [cbn [nth all_cutoffs cutoffs nth_error Nat.eqb]; split;
      [intros [H1 [H2 _]]; split; [try (destruct H1 as [c [E Hc]]; injection E as <-); lra|first [apply H2; reflexivity|lra]]
      |intros [H1 H2]; split; [first [exact I|eexists; split; [reflexivity|lra]]|split; [intros c E; first [discriminate|injection E as <-; lra]|lia]]]|]). lia. }
  split; [|split; [|split; [exact W|]]].
  - clear W. do 19 (destruct k as [|k]; [cbn [nth all_cutoffs cutoffs Nat.eqb]; unfold cutoff0; lra|]). lia.
  - clear W. do 19 (destruct k as [|k]; [cbn [nth all_cutoffs cutoffs Nat.eqb]; unfold cutoff0; lra|]). lia.
  - clear W. apply Rabs_le. destruct (Nat.eqb_spec k 18) as [->|N].
    + pose proof exp_m1_tight. destruct inv_fact_values as (_ & _ & _ & _ & _ & _ & _ & _ & _ & _ & _ & _ & _ & _ & _ & _ & _ & _ & E18 & _).
      rewrite cdf_term, E18. cbn [nth all_cutoffs cutoffs]. lra.
    + pose proof (cutoff_close k (nth k all_cutoffs 1)) as C. rewrite nth_error_nth' with (d := 1) in C by (change (List.length all_cutoffs) with 18%nat; lia). specialize (C eq_refl).
      destruct k as [|j]; [unfold poisson_cdf in C; lra|].
      pose proof (cutoff_close j (nth j all_cutoffs 1)) as D. rewrite nth_error_nth' with (d := 1) in D by (change (List.length all_cutoffs) with 18%nat; lia). specialize (D eq_refl).
      change (poisson_cdf (S j)) with (poisson_cdf j + exp (-1) / INR (fact (S j))) in C. lra.
Qed.
Print Assumptions C55_probabilities.
Example C55_example : poisson_weight (0.3) = 0%nat /\ poisson_weight (0.5) = 1%nat /\ poisson_weight (0.999) = 5%nat.
Proof.
  unfold poisson_weight, cutoff0, cutoffs, case_weight. repeat split;
  repeat match goal with |- context[Rlt_dec ?a ?b] => destruct (Rlt_dec a b); try (exfalso; lra) | |- context[Rle_dec ?a ?b] => destruct (Rle_dec a b); try (exfalso; lra) end; reflexivity.
Qed.
