(** PrePostChange and CUPED with several covariates. *)
From Coq Require Import Reals List Bool String Arith Lia Lra.
From Verif Require Import M_Num M_Frame M_Ops M_Leaf M_Adjust M_AdjustMany S_Ops S_Leaf S_AdjustMany L_Fsum L_Frame L_OpsB L_Leaf L_Leaf2 L_Slices L_Adjust L_LeastSq.
Import ListNotations.
Open Scope list_scope.
Open Scope R_scope.

(** *** least squares *)
Section Squares.
  Context {A : Type}.
  Implicit Types (x : nat -> A -> R) (y : A -> R) (rows : list A).
  Lemma combine_predict q u p x rows : combinations q u p x rows -> forall a b, exists a' b', forall r, In r rows -> prediction q u a b r = prediction p x a' b' r.
  Proof.
    induction q as [|q IH]; intros H a b.
    - exists a, (fun _ => 0). intros r _. unfold prediction. cbn [fsum]. rewrite fsum_zero; [reflexivity|]. intros; ring.
    - destruct (IH (fun i Hi => H i (Nat.lt_lt_succ_r _ _ Hi)) a b) as (a1 & b1 & E1). destruct (H q (Nat.lt_succ_diag_r q)) as (d & m & E2).
      exists (a1 + b q * d), (fun i => b1 i + b q * m i). intros r Hr. rewrite prediction_S, prediction_lin, E1, E2 by assumption. reflexivity.
  Qed.
  (** a solution in other terms is a solution *)
  Lemma fits_combine q u p x y rows a b : combinations q u p x rows -> combinations p x q u rows -> fits q u y rows a b ->
    exists a' b', fits p x y rows a' b' /\ forall r, In r rows -> prediction q u a b r = prediction p x a' b' r.
  Proof.
    intros H1 H2 HF. destruct (combine_predict _ _ _ _ _ H1 a b) as (a' & b' & E). exists a', b'. split; [|exact E].
    intros a2 b2. destruct (combine_predict _ _ _ _ _ H2 a2 b2) as (a3 & b3 & E3). specialize (HF a3 b3).
    rewrite (sum_of_ext _ (fun r => (y r - prediction p x a' b' r) ^ 2)) in HF by (intros; now rewrite E).
    rewrite (sum_of_ext (fun r => (y r - prediction q u a3 b3 r) ^ 2) (fun r => (y r - prediction p x a2 b2 r) ^ 2)) in HF by (intros; now rewrite E3). exact HF.
  Qed.
  Lemma mean_plus f g rows : mean_of (fun r : A => f r + g r) rows = mean_of f rows + mean_of g rows.
  Proof. unfold mean_of. rewrite sum_of_plus. unfold Rdiv. ring. Qed.
  Lemma mean_prediction p x a b rows : rows <> [] -> mean_of (prediction p x a b) rows = a + fsum p (fun i => b i * mean_of (x i) rows).
  Proof.
    intros Hn. assert (Hs : 0 < size rows) by (unfold size; destruct rows; [congruence|]; apply lt_0_INR; cbn; lia).
    unfold mean_of, prediction. rewrite sum_of_plus, sum_of_const, sum_of_fsum.
    rewrite (fsum_ext _ (fun i => sum_of (fun r => b i * x i r) rows) (fun i => size rows * (b i * (sum_of (x i) rows / size rows)))) by (intros; rewrite sum_of_scal; field; lra).
    rewrite fsum_scal. field. lra.
  Qed.
  (** linear combinations of centered covariates *)
  Lemma prediction_centered p x rows d m : rows <> [] -> forall r,
    prediction p x d m r - mean_of (prediction p x d m) rows = prediction p (fun i r => x i r - mean_of (x i) rows) 0 m r.
  Proof.
    intros Hn r. rewrite mean_prediction by assumption. unfold prediction.
    rewrite (fsum_ext _ (fun i => m i * (x i r - mean_of (x i) rows)) (fun i => m i * x i r - m i * mean_of (x i) rows)) by (intros; ring). rewrite fsum_minus. ring.
  Qed.
  Lemma centered_combination q u p x rows : rows <> [] -> combinations q u p x rows -> forall b, exists b', forall a r, In r rows ->
    prediction q (fun i r => u i r - mean_of (u i) rows) a b r = prediction p (fun i r => x i r - mean_of (x i) rows) a b' r.
  Proof.
    intros Hn. induction q as [|q IH]; intros H b.
    - exists (fun _ => 0). intros a r _. unfold prediction. cbn [fsum]. rewrite fsum_zero; [reflexivity|]. intros; ring.
    - destruct (IH (fun i Hi => H i (Nat.lt_lt_succ_r _ _ Hi)) b) as (b1 & E1). destruct (H q (Nat.lt_succ_diag_r q)) as (d & m & E2).
      exists (fun i => b1 i + b q * m i). intros a r Hr. rewrite prediction_S.
      replace a with (a + b q * 0) at 2 by ring. rewrite prediction_lin, E1 by assumption. f_equal. f_equal.
      rewrite (mean_ext (u q) (prediction p x d m)) by assumption. rewrite E2 by assumption. now apply prediction_centered.
  Qed.
  (** the model of the class doc *)
  Lemma interaction_many p x y B T b0 b1 b2 b3 : best_interaction_model_many p x y B T b0 b1 b2 b3 <->
    fits p x y B b0 b2 /\ fits p x y T (b0 + b1) (fun i => b2 i + b3 i).
  Proof.
    assert (EB : forall c0 c1 c2 c3, sum_of (fun r => (y r - (c0 + c1 * 0 + fsum p (fun i => c2 i * x i r) + 0 * fsum p (fun i => c3 i * x i r))) ^ 2) B = sum_of (fun r => (y r - prediction p x c0 c2 r) ^ 2) B).
    { intros. apply sum_of_ext. intros r _. unfold prediction. f_equal. ring. }
    assert (ET : forall c0 c1 c2 c3, sum_of (fun r => (y r - (c0 + c1 * 1 + fsum p (fun i => c2 i * x i r) + 1 * fsum p (fun i => c3 i * x i r))) ^ 2) T = sum_of (fun r => (y r - prediction p x (c0 + c1) (fun i => c2 i + c3 i) r) ^ 2) T).
    { intros. apply sum_of_ext. intros r _. unfold prediction. rewrite (fsum_ext _ (fun i => (c2 i + c3 i) * x i r) (fun i => c2 i * x i r + c3 i * x i r)) by (intros; ring). rewrite fsum_plus. f_equal. ring. }
    unfold best_interaction_model_many. cbv zeta. split.
    - intros H. split; intros a' b'.
      + specialize (H a' (b0 + b1 - a') b' (fun i => b2 i + b3 i - b' i)). rewrite !EB, !ET in H.
        rewrite (sum_of_ext (fun r => (y r - prediction p x (a' + (b0 + b1 - a')) (fun i => b' i + (b2 i + b3 i - b' i)) r) ^ 2) (fun r => (y r - prediction p x (b0 + b1) (fun i => b2 i + b3 i) r) ^ 2)) in H; [lra|].
        intros r _. f_equal. f_equal. replace (a' + (b0 + b1 - a')) with (b0 + b1) by ring. apply prediction_b. intros; ring.
      + specialize (H b0 (a' - b0) b2 (fun i => b' i - b2 i)). rewrite !EB, !ET in H.
        rewrite (sum_of_ext (fun r => (y r - prediction p x (b0 + (a' - b0)) (fun i => b2 i + (b' i - b2 i)) r) ^ 2) (fun r => (y r - prediction p x a' b' r) ^ 2)) in H; [lra|].
        intros r _. f_equal. f_equal. replace (b0 + (a' - b0)) with a' by ring. apply prediction_b. intros; ring.
    - intros [H1 H2] c0 c1 c2 c3. rewrite !EB, !ET. apply Rplus_le_compat; [apply H1|apply H2].
  Qed.
  (** y - b x varies less than y *)
  Lemma residual_variance p x y rows a b : fits p x y rows a b ->
    cross (fun r => y r - fsum p (fun i => b i * x i r)) (fun r => y r - fsum p (fun i => b i * x i r)) rows <= cross y y rows.
  Proof.
    intros H. destruct rows as [|r0 rows']; [unfold cross, wcross, sum_of; cbn; lra|]. set (rows := r0 :: rows') in *.
    assert (Hs : 0 < size rows) by (unfold size, rows; apply lt_0_INR; cbn; lia).
    set (f := fun r => y r - fsum p (fun i => b i * x i r)). rewrite <- !cross_means.
    specialize (H (mean_of y rows) (fun _ => 0)).
    rewrite (sum_of_ext (fun r => (y r - prediction p x (mean_of y rows) (fun _ => 0) r) ^ 2) (fun r => (y r - mean_of y rows) * (y r - mean_of y rows))) in H.
    2:{ intros r _. unfold prediction. rewrite fsum_zero by (intros; ring). ring. }
    apply Rle_trans with (2 := H).
    rewrite (sum_of_ext (fun r => (y r - prediction p x a b r) ^ 2) (fun r => (f r - mean_of f rows) * (f r - mean_of f rows) + (2 * (mean_of f rows - a) * (f r) + (- (2 * (mean_of f rows - a) * mean_of f rows) + (mean_of f rows - a) ^ 2)))).
    2:{ intros r _. unfold prediction, f. ring. }
    rewrite !sum_of_plus, sum_of_scal, sum_of_const.
    assert (E : sum_of f rows = mean_of f rows * size rows) by (unfold mean_of; field; lra). rewrite E.
    assert (0 <= (mean_of f rows - a) ^ 2 * size rows) by (apply Rmult_le_pos; [apply pow2_ge_0|lra]).
    set (m := mean_of f rows) in *. rewrite sum_of_const.
    replace (2 * (m - a) * (m * size rows) + (- (2 * (m - a) * m) * size rows + (m - a) ^ 2 * size rows)) with ((m - a) ^ 2 * size rows) by ring. lra.
  Qed.
End Squares.

(** *** each *)
Lemma each_None {A B} (f : A -> option B) l : each f l = None <-> exists a, In a l /\ f a = None.
Proof.
  induction l as [|a l IH]; cbn; [split; [discriminate|intros [a [[] _]]]|]. destruct (f a) eqn:E.
  - destruct (each f l); split.
    + discriminate.
    + intros [a' [[<-|H] H']]; [congruence|]. destruct IH as [_ IH]. discriminate IH. eauto.
    + intros _. destruct IH as [IH _]. destruct (IH eq_refl) as [a' [H1 H2]]. eauto.
    + auto.
  - split; eauto.
Qed.
Lemma each_map {A B} (f : A -> option B) (d : A -> B) l bs : (forall a b, f a = Some b -> b = d a) -> each f l = Some bs -> bs = List.map d l.
Proof.
  intros H. revert bs. induction l as [|a l IH]; cbn; intros bs E; [injection E as <-; reflexivity|].
  destruct (f a) eqn:Ef; [|discriminate]. destruct (each f l) eqn:El; [|discriminate]. injection E as <-. rewrite (H _ _ Ef), (IH _ eq_refl). reflexivity.
Qed.

Section Model.
  Variable lm : regression.
  Variables (s conds : list string) (y : string) (covs : list string).
  Hypothesis y_not : ~ In y covs.
  Notation p := (List.length covs).
  Definition ccell (t : table) (r : drow) : drow :=
    Row (lab r) (fun v => if in_dec string_dec v covs then xsub (val r v) (split_mean s v t r) else val r v).
  Lemma ccell_key cols t r : row_key cols (ccell t r) = row_key cols r.
  Proof. induction cols as [|c cols IH]; [reflexivity|]. cbn [row_key]. now rewrite IH. Qed.
  Lemma slice_call cols k t : slice cols k (centered_all s covs t) = List.map (ccell t) (slice cols k t).
  Proof. apply slice_map_set. intros r. apply ccell_key. Qed.
  Lemma keys_call cols t : group_keys cols (centered_all s covs t) = group_keys cols t.
  Proof. apply group_keys_map. intros r. apply ccell_key. Qed.
  Lemma ccell_y t r : val (ccell t r) y = val r y.
  Proof. cbn [ccell val]. destruct (in_dec string_dec y covs); [contradiction|reflexivity]. Qed.
  Lemma fit_None rows : rows <> [] -> (fit lm y covs rows = None <-> exists r v, In r rows /\ In v (y :: covs) /\ finite_cell (val r v) = false).
  Proof.
    intros Hn. unfold fit. destruct rows as [|r0 rows]; [congruence|]. set (l := r0 :: rows) in *.
    destruct (forallb _ l) eqn:E; split.
    - discriminate.
    - intros (r & v & Hr & Hv & Hf). rewrite forallb_forall in E. specialize (E r Hr). apply andb_prop in E as [E1 E2]. destruct Hv as [<-|Hv]; [congruence|].
      rewrite forallb_forall in E2. specialize (E2 v Hv). congruence.
    - intros _. assert (X : exists r, In r l /\ (finite_cell (val r y) && forallb (fun x => finite_cell (val r x)) covs = false)).
      { clear -E. induction l as [|r l IH]; [discriminate|]. cbn [forallb] in E. apply andb_false_iff in E as [E|E].
        - exists r. split; [now left|exact E].
        - destruct (IH E) as [r' [H1 H2]]. exists r'. split; [now right|exact H2]. }
      destruct X as [r [Hr X]]. apply andb_false_iff in X as [X|X]; [exists r, y; repeat split; auto; now left|].
      assert (Y : exists v, In v covs /\ finite_cell (val r v) = false).
      { clear -X. induction covs as [|c cs IH]; [discriminate|]. cbn [forallb] in X. apply andb_false_iff in X as [X|X]; [exists c; split; [now left|exact X]|].
        destruct (IH X) as [v [H1 H2]]. exists v. split; [now right|exact H2]. }
      destruct Y as [v [H1 H2]]. exists r, v. repeat split; auto. now right.
    - reflexivity.
  Qed.

  (** one split *)
  Variables (t : table) (k : list string).
  Hypothesis k_length : List.length k = List.length s.
  Hypothesis y_complete : complete (Col y) (slice s k t).
  Hypothesis x_complete : Forall (fun x => complete (Col x) (slice s k t)) covs.
  Hypothesis lm_solves : solves lm.
  Notation Y := (at_ (Col y)).
  Definition X (i : nat) : drow -> R := at_ (Col (nth i covs EmptyString)).
  Definition mid (i : nat) : R := mean_of (X i) (slice s k t).
  Definition Z (i : nat) (r : drow) : R := X i r - mid i.
  Lemma cov_complete i : (i < p)%nat -> complete (Col (nth i covs EmptyString)) (slice s k t).
  Proof. intros H. rewrite Forall_forall in x_complete. apply x_complete, nth_In, H. Qed.
  Lemma ccell_x i r : (i < p)%nat -> In r (slice s k t) -> val (ccell t r) (nth i covs EmptyString) = Fin (Z i r).
  Proof.
    intros Hi Hr. cbn [ccell val]. destruct (in_dec string_dec _ covs) as [_|N]; [|destruct N; now apply nth_In].
    pose proof Hr as Hk. apply slice_In in Hk. destruct Hk as [_ Hk]. pose proof (cov_complete i Hi) as C.
    unfold split_mean. rewrite Hk, agg_mean_value by (auto; intros E; rewrite E in Hr; destruct Hr).
    unfold complete in C. rewrite Forall_forall in C. destruct (C r Hr) as [a Ha]. cbn in Ha. unfold Z, X, mid, at_. cbn [cellx]. rewrite Ha. reflexivity.
  Qed.
  Lemma y_cell r : In r (slice s k t) -> val r y = Fin (Y r).
  Proof. intros Hr. unfold complete in y_complete. rewrite Forall_forall in y_complete. destruct (y_complete r Hr) as [a Ha]. unfold at_. rewrite Ha. exact Ha. Qed.
  Lemma fit_value rs : incl rs (slice s k t) -> rs <> [] ->
    exists ab, fit lm y covs (List.map (ccell t) rs) = Some ab /\ fits p Z Y rs (fst ab) (snd ab).
  Proof.
    intros Hi Hn. destruct (fit lm y covs (List.map (ccell t) rs)) as [ab|] eqn:E.
    - exists ab. split; [reflexivity|]. unfold fit in E. destruct (List.map (ccell t) rs) as [|r0 l] eqn:El; [discriminate|]. rewrite <- El in E.
      destruct (forallb _ _); [|discriminate]. injection E as <-. rewrite List.map_map.
      set (g := fun r => _). set (data := List.map g rs).
      assert (Hd : data <> []) by (unfold data; destruct rs; [congruence|discriminate]).
      pose proof (lm_solves p data Hd) as F. unfold data at 1 in F. rewrite fits_map in F.
      apply fits_ext with (3 := F).
      + intros i r Hi' Hr. unfold g. cbn [fst]. rewrite ccell_x by auto. reflexivity.
      + intros r Hr. unfold g. cbn [snd]. rewrite ccell_y, y_cell by auto. reflexivity.
    - exfalso. apply fit_None in E; [|destruct rs; [congruence|discriminate]]. destruct E as (r' & v & Hr' & Hv & Hf).
      apply in_map_iff in Hr' as [r [<- Hr]]. destruct Hv as [<-|Hv].
      + rewrite ccell_y, y_cell in Hf by auto. discriminate.
      + apply (In_nth _ _ EmptyString) in Hv as [i [Hi' <-]]. rewrite ccell_x in Hf by auto. discriminate.
  Qed.
  Definition prepost_cell (q : list string) : num :=
    match fit lm y covs (slice (s ++ conds) q (centered_all s covs t)) with Some ab => Fin (fst ab) | None => NaN end.
  Lemma prepost_many_map fr : prepost_many_adjusted lm s conds y covs t = Some fr -> fr = List.map (fun q => (q, prepost_cell q)) (group_keys (s ++ conds) t).
  Proof.
    unfold prepost_many_adjusted. rewrite keys_call. apply each_map. intros q b H. unfold prepost_cell. destruct (fit _ _ _ _); [|discriminate]. now injection H as <-.
  Qed.
  Lemma prepost_many_value fr c : prepost_many_adjusted lm s conds y covs t = Some fr -> slice (s ++ conds) (k ++ c) t <> [] ->
    exists a b, value_at (k ++ c) fr (Fin a) /\ fits p Z Y (slice (s ++ conds) (k ++ c) t) a b.
  Proof.
    intros Hf Hn. destruct (fit_value (slice (s ++ conds) (k ++ c) t)) as [ab [E F]]; [now apply arm_incl|exact Hn|].
    exists (fst ab), (snd ab). split; [|exact F]. rewrite (prepost_many_map fr Hf).
    assert (V : prepost_cell (k ++ c) = Fin (fst ab)) by (unfold prepost_cell; rewrite slice_call, E; reflexivity).
    rewrite <- V. apply value_map; [apply keys_NoDup|]. now apply arm_key.
  Qed.
  (** CUPED *)
  Definition cuped_cell (g c : list string) : num :=
    match fit lm y covs (slice s g (centered_all s covs t)) with
    | Some ab => let arm := slice conds c (slice s g (centered_all s covs t)) in
        xsub (agg_mean y arm) (fold_right xadd (Fin 0) (List.map (fun i => xmul (agg_mean (nth i covs EmptyString) arm) (Fin (snd ab i))) (seq 0 p)))
    | None => NaN end.
  Definition cuped_keys : list (list string * list string) :=
    flat_map (fun g => List.map (fun c => (g, c)) (group_keys conds (slice s g t))) (group_keys s t).
  Lemma cuped_many_map fr : cuped_many_adjusted lm s conds y covs t = Some fr ->
    fr = List.map (fun gc => (fst gc ++ snd gc, cuped_cell (fst gc) (snd gc))) cuped_keys.
  Proof.
    unfold cuped_many_adjusted. rewrite keys_call. destruct (each _ (group_keys s t)) as [frs|] eqn:E; [|discriminate]. intros H. injection H as <-.
    apply (each_map _ (fun g => List.map (fun c => (g ++ c, cuped_cell g c)) (group_keys conds (slice s g t)))) in E.
    - rewrite E. unfold cuped_keys. clear E. induction (group_keys s t) as [|g l IH]; [reflexivity|]. cbn [List.map List.concat flat_map]. rewrite map_app, IH. f_equal. rewrite List.map_map. reflexivity.
    - intros g b H. unfold cuped_slice in H. destruct (fit lm y covs _) as [ab|] eqn:Ef; [|discriminate]. injection H as <-.
      assert (EK : group_keys conds (slice s g (centered_all s covs t)) = group_keys conds (slice s g t)).
      { rewrite slice_call. apply group_keys_map. intros r. apply ccell_key. }
      rewrite EK. apply map_ext. intros c. unfold cuped_cell. rewrite Ef. reflexivity.
  Qed.
  Lemma keys_len cols df q : In q (group_keys cols df) -> List.length q = List.length cols.
  Proof. intros H. apply group_keys_In in H. destruct H as [[-> ->]|[_ [r [_ Hr]]]]; [reflexivity|]. now apply row_key_length in Hr. Qed.
  Lemma cuped_keys_len g c : In (g, c) cuped_keys -> List.length g = List.length s /\ List.length c = List.length conds.
  Proof.
    unfold cuped_keys. rewrite in_flat_map. intros [g' [H1 H2]]. apply in_map_iff in H2 as [c' [E H2]]. injection E as -> ->. split; eapply keys_len; eassumption.
  Qed.
  Lemma cuped_keys_NoDup : NoDup (List.map (fun gc => fst gc ++ snd gc) cuped_keys).
  Proof.
    unfold cuped_keys. assert (ND : NoDup (group_keys s t)) by apply keys_NoDup.
    assert (HL : forall g, In g (group_keys s t) -> List.length g = List.length s) by (intros g; apply keys_len).
    induction (group_keys s t) as [|g l IH]; [constructor|]. cbn [flat_map]. rewrite map_app, List.map_map. cbn [fst snd]. inversion ND as [|? ? Hg Hl]; subst.
    assert (Disj : forall q, In q (List.map (fun c => g ++ c) (group_keys conds (slice s g t))) -> ~ In q (List.map (fun gc => fst gc ++ snd gc) (flat_map (fun g => List.map (fun c => (g, c)) (group_keys conds (slice s g t))) l))).
    { intros q H1 H2. apply in_map_iff in H1 as [c [E1 _]]. apply in_map_iff in H2 as [[g2 c2] [E2 H2]]. cbn [fst snd] in E2. apply in_flat_map in H2 as [g3 [H3 H4]]. apply in_map_iff in H4 as [c3 [E4 _]]. injection E4 as -> ->.
      rewrite <- E1 in E2. apply app_len_inj in E2 as [E2 _]; [|rewrite (HL g2) by (now right); symmetry; apply HL; now left]. subst g2. contradiction. }
    assert (N1 : NoDup (List.map (fun c => g ++ c) (group_keys conds (slice s g t)))).
    { pose proof (keys_NoDup conds (slice s g t)) as N. revert N. generalize (group_keys conds (slice s g t)). induction l0 as [|c l0 IH0]; intros N; [constructor|]. inversion N; subst. cbn. constructor; [|auto].
      intros H. apply in_map_iff in H as [c' [E H]]. apply app_inv_head in E. subst. contradiction. }
    specialize (IH Hl (fun g' H => HL g' (or_intror H))).
    revert N1 Disj. generalize (List.map (fun c => g ++ c) (group_keys conds (slice s g t))). induction l0 as [|q l0 IH0]; intros N1 D; [exact IH|]. inversion N1; subst. cbn. constructor.
    - intros H. apply in_app_or in H as [H|H]; [contradiction|]. apply (D q); [now left|exact H].
    - apply IH0; auto. intros q' H. apply D. now right.
  Qed.
  Lemma cuped_key_In c : slice (s ++ conds) (k ++ c) t <> [] -> In (k, c) cuped_keys.
  Proof.
    intros H. unfold cuped_keys. apply in_flat_map. exists k. rewrite slice_slice in H by assumption. split.
    - apply slice_nonempty in H as [r [Hr _]]. apply slice_In in Hr as [Hr Hk]. apply group_keys_In. destruct s; [left; split; [reflexivity|]; cbn in Hk; congruence|right; split; [discriminate|eauto]].
    - apply in_map_iff. exists c. split; [reflexivity|]. apply slice_nonempty in H as [r [Hr Hc]]. apply group_keys_In. destruct conds; [left; split; [reflexivity|]; cbn in Hc; congruence|right; split; [discriminate|eauto]].
  Qed.
  Lemma fold_fsum n (f : nat -> R) (g : nat -> num) : (forall i, (i < n)%nat -> g i = Fin (f i)) -> fold_right xadd (Fin 0) (List.map g (seq 0 n)) = Fin (fsum n f).
  Proof.
    revert f g. induction n as [|n IH]; intros f g H; [reflexivity|].
    change (seq 0 (S n)) with (0%nat :: seq 1 n). cbn [List.map fold_right]. rewrite <- seq_shift, List.map_map.
    rewrite (IH (fun i => f (S i)) (fun i => g (S i))) by (intros; apply H; lia). rewrite H by lia. cbn [xadd]. now rewrite fsum_shift.
  Qed.
  Lemma cuped_many_value fr c : cuped_many_adjusted lm s conds y covs t = Some fr -> slice (s ++ conds) (k ++ c) t <> [] ->
    exists a b, fits p Z Y (slice s k t) a b /\ In (k ++ c, cuped_cell k c) fr /\
      (forall c, slice (s ++ conds) (k ++ c) t <> [] -> cuped_cell k c = Fin (mean_of Y (slice (s ++ conds) (k ++ c) t) - fsum p (fun i => b i * mean_of (Z i) (slice (s ++ conds) (k ++ c) t)))).
  Proof.
    intros Hf Hn. destruct (fit_value (slice s k t)) as [ab [E F]]; [apply incl_refl| |].
    - intros E. apply Hn. rewrite slice_slice, E by assumption. reflexivity.
    - exists (fst ab), (snd ab). split; [exact F|]. split.
      + rewrite (cuped_many_map fr Hf). apply in_map_iff. exists (k, c). split; [reflexivity|now apply cuped_key_In].
      + intros c' Hc'. unfold cuped_cell. rewrite slice_call, E. cbv zeta. rewrite <- slice_call, <- slice_slice, slice_call by assumption.
        set (arm := slice (s ++ conds) (k ++ c') t) in *. assert (Hi : incl arm (slice s k t)) by now apply arm_incl.
        assert (Hm : forall rs : table, rs <> [] -> List.map (ccell t) rs <> []) by (intros [|? ?]; [congruence|discriminate]).
        rewrite agg_mean_value.
        * rewrite mean_map, (mean_ext _ Y).
          -- rewrite (fold_fsum p (fun i => snd ab i * mean_of (Z i) arm)); [reflexivity|]. intros i Hi'. rewrite agg_mean_value; [|apply Forall_forall; intros r' Hr'; apply in_map_iff in Hr' as [r [<- Hr]]; exists (Z i r); cbn [cellx]; apply ccell_x; auto|auto].
             cbn [xmul]. f_equal. rewrite Rmult_comm. f_equal. rewrite mean_map. apply mean_ext. intros r Hr. unfold at_. cbn [cellx]. rewrite ccell_x by auto. reflexivity.
          -- intros r Hr. unfold at_. cbn [cellx]. now rewrite ccell_y.
        * apply Forall_forall. intros r' Hr'. apply in_map_iff in Hr' as [r [<- Hr]]. exists (Y r). cbn [cellx]. rewrite ccell_y. apply y_cell; auto.
        * auto.
  Qed.
End Model.
