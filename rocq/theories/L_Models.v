(** Lemmas on M_Models: the constructed matrices, quadratic minimization. *)
From Coq Require Import Reals Lra Lia List Arith Bool.
From Verif Require Import M_Num M_Frame L_Fsum L_Frame L_Jackknife M_Models S_Models.
Import ListNotations.
Open Scope R_scope.
Open Scope list_scope.

(** ** triangles *)
Lemma triu_S n : triu (S n) = map (fun j => (0%nat, j)) (seq 0 (S n)) ++ map (fun p => (S (fst p), S (snd p))) (triu n).
Proof.
  unfold triu. cbn [seq flat_map]. rewrite Nat.sub_0_r. f_equal.
  rewrite <- seq_shift, flat_map_concat_map, map_map, flat_map_concat_map, concat_map, map_map.
  f_equal. apply map_ext. intros i. rewrite map_map. cbn [Nat.sub].
  rewrite <- seq_shift, map_map. reflexivity.
Qed.
Lemma triu_length n : (2 * List.length (triu n) = n * (n + 1))%nat.
Proof.
  induction n as [|n IH]; [reflexivity|].
  rewrite triu_S, app_length, !map_length, seq_length. lia.
Qed.
Lemma triu_in n i j : In (i, j) (triu n) <-> (i <= j < n)%nat.
Proof.
  unfold triu. rewrite in_flat_map. split.
  - intros [a [Ha H]]. apply in_map_iff in H. destruct H as [b [E Hb]]. injection E as -> ->.
    apply in_seq in Ha, Hb. lia.
  - intros H. exists i. split; [apply in_seq; lia|].
    apply in_map_iff. exists j. split; [reflexivity|apply in_seq; lia].
Qed.
Lemma assign_in pos g i j : In (i, j) pos -> assign pos (map g pos) i j = g (i, j).
Proof.
  induction pos as [|[a b] pos IH]; intros H; [destruct H|].
  cbn [map assign]. destruct (Nat.eqb_spec a i) as [->|Ha]; destruct (Nat.eqb_spec b j) as [->|Hb]; cbn [andb];
    try reflexivity; apply IH; (destruct H as [H|H]; [inversion H; congruence|exact H]).
Qed.
Lemma assign_out pos g i j : ~ In (i, j) pos -> assign pos (map g pos) i j = 0.
Proof.
  induction pos as [|[a b] pos IH]; intros H; [reflexivity|].
  cbn [map assign]. destruct (Nat.eqb_spec a i) as [->|Ha]; destruct (Nat.eqb_spec b j) as [->|Hb]; cbn [andb];
    try (apply IH; intros H1; apply H; right; exact H1).
  exfalso. apply H. left. reflexivity.
Qed.
Lemma sqrt_triangle n : Nat.sqrt (n * (n + 1)) = n.
Proof. apply Nat.sqrt_unique. lia. Qed.
Lemma symmetrize_spec n g :
  exists A, symmetrize (map (fun p => g (fst p) (snd p)) (triu n)) = Some (n, A)
    /\ forall i j, (i < n)%nat -> (j < n)%nat -> A i j = g (Nat.min i j) (Nat.max i j).
Proof.
  unfold symmetrize. rewrite map_length, triu_length, sqrt_triangle, Nat.eqb_refl.
  eexists. split; [reflexivity|]. intros i j Hi Hj. cbv beta.
  destruct (Nat.eqb_spec i j) as [->|Hne].
  - rewrite assign_in by (apply triu_in; lia). rewrite Nat.min_id, Nat.max_id. cbn [fst snd]. lra.
  - destruct (Nat.lt_trichotomy i j) as [H|[H|H]]; [|congruence|].
    + rewrite assign_in by (apply triu_in; lia). rewrite assign_out by (rewrite triu_in; lia).
      rewrite Nat.min_l, Nat.max_r by lia. cbn [fst snd]. lra.
    + rewrite (assign_in _ _ j i) by (apply triu_in; lia). rewrite assign_out by (rewrite triu_in; lia).
      rewrite Nat.min_r, Nat.max_l by lia. cbn [fst snd]. lra.
Qed.

(** ** lookups *)
Lemma skey_eqb_eq a b : skey_eqb a b = true <-> a = b.
Proof.
  split.
  - destruct a, b; cbn; intros H; try discriminate; try reflexivity;
      try (apply Nat.eqb_eq in H; subst; reflexivity).
    apply andb_true_iff in H. destruct H as [H1 H2]. apply Nat.eqb_eq in H1, H2. subst. reflexivity.
  - intros ->. destruct b; cbn; rewrite ?Nat.eqb_refl; reflexivity.
Qed.
Lemma get_map cols f c : In c cols -> get (map (fun c => (c, f c)) cols) c = Some (f c).
Proof.
  induction cols as [|c' cols IH]; intros H; [destruct H|].
  cbn [map get]. destruct (skey_eqb c' c) eqn:E.
  - apply skey_eqb_eq in E. subst. reflexivity.
  - apply IH. destruct H as [->|H]; [|exact H].
    assert (skey_eqb c c = true) by (apply skey_eqb_eq; reflexivity). congruence.
Qed.
Lemma get_all_map cols f ks : (forall c, In c ks -> In c cols) -> get_all (map (fun c => (c, f c)) cols) ks = Some (map f ks).
Proof.
  induction ks as [|c ks IH]; intros H; [reflexivity|].
  cbn [get_all map]. rewrite get_map by (apply H; left; reflexivity).
  rewrite IH by (intros c' Hc; apply H; right; exact Hc). reflexivity.
Qed.
Lemma mapM_all {A B} (f : A -> option B) g l : (forall a, In a l -> f a = Some (g a)) -> mapM f l = Some (map g l).
Proof.
  induction l as [|a l IH]; intros H; [reflexivity|].
  cbn [mapM map]. rewrite (H a) by (left; reflexivity). rewrite IH by (intros; apply H; right; assumption). reflexivity.
Qed.
Lemma last_key_stats k fit n rows : last_key (suff_stats (S k) fit n rows) = Some (KXY k).
Proof.
  unfold last_key, suff_stats. rewrite map_map. cbn [fst]. rewrite map_id. unfold stat_cols.
  assert (E : seq 0 (S k) = seq 0 k ++ [k]) by (rewrite seq_S; reflexivity).
  rewrite E, !map_app, !app_assoc. cbn [map].
  destruct n; rewrite ?app_nil_r, !rev_app_distr; cbn [rev app]; reflexivity.
Qed.

(** ** averages *)
Lemma Rsum_map_ext {A} (f g : A -> R) l : (forall a, In a l -> f a = g a) -> Rsum (map f l) = Rsum (map g l).
Proof. intros H. rewrite (map_ext_in _ _ _ H). reflexivity. Qed.
Lemma Rsum_map_plus {A} (f g : A -> R) l : Rsum (map (fun a => f a + g a) l) = Rsum (map f l) + Rsum (map g l).
Proof.
  induction l as [|a l IH]; cbn [map Rsum] in *; [lra|rewrite IH; lra].
Qed.
Lemma Rsum_map_scal {A} c (f : A -> R) l : Rsum (map (fun a => c * f a) l) = c * Rsum (map f l).
Proof.
  induction l as [|a l IH]; cbn [map Rsum] in *; [lra|rewrite IH; lra].
Qed.
Lemma Rsum_map_nonneg {A} (f : A -> R) l : (forall a, In a l -> 0 <= f a) -> 0 <= Rsum (map f l).
Proof.
  induction l as [|a l IH]; intros H; cbn [map Rsum] in *; [lra|].
  specialize (IH (fun b Hb => H b (or_intror Hb))). specialize (H a (or_introl eq_refl)). lra.
Qed.
Lemma Rsum_map_const {A} c (l : list A) : Rsum (map (fun _ => c) l) = INR (List.length l) * c.
Proof.
  induction l as [|a l IH]; [cbn; lra|].
  cbn [List.length]. rewrite S_INR. cbn [map Rsum] in *. rewrite IH. lra.
Qed.
Lemma avg_ext f g rows : (forall r, In r rows -> f r = g r) -> avg f rows = avg g rows.
Proof. intros H. unfold avg. rewrite (Rsum_map_ext _ _ _ H). reflexivity. Qed.
Lemma avg_plus f g rows : avg (fun r => f r + g r) rows = avg f rows + avg g rows.
Proof. unfold avg. rewrite Rsum_map_plus. unfold Rdiv. lra. Qed.
Lemma avg_scal c f rows : avg (fun r => c * f r) rows = c * avg f rows.
Proof. unfold avg. rewrite Rsum_map_scal. unfold Rdiv. lra. Qed.
Lemma avg_fsum n (f : nat -> row -> R) rows : avg (fun r => fsum n (fun i => f i r)) rows = fsum n (fun i => avg (f i) rows).
Proof.
  induction n as [|n IH]; cbn [fsum].
  - unfold avg. rewrite Rsum_map_const. unfold Rdiv. lra.
  - rewrite avg_plus, IH. reflexivity.
Qed.
Lemma size_pos (rows : list row) : rows <> [] -> 0 < INR (List.length rows).
Proof. intros H. destruct rows; [congruence|]. apply lt_0_INR. cbn. lia. Qed.
Lemma avg_const c rows : rows <> [] -> avg (fun _ => c) rows = c.
Proof. intros H. apply size_pos in H. unfold avg. rewrite Rsum_map_const. field. lra. Qed.
Lemma avg_nonneg f rows : (forall r, 0 <= f r) -> 0 <= avg f rows.
Proof.
  intros H. unfold avg. destruct rows as [|r rows].
  - unfold Rdiv. cbn. lra.
  - apply Rmult_le_pos; [apply Rsum_map_nonneg; intros; apply H|].
    left. apply Rinv_0_lt_compat, size_pos. congruence.
Qed.

(** ** the matrices built from the statistics *)
(** the j-th column of the design matrix *)
Definition zf (fit : bool) (i : nat) (r : row) : R :=
  if fit then match i with O => 1 | S i' => feat i' r end else feat i r.
Definition gram fit rows i j := avg (fun r => zf fit i r * zf fit j r) rows.
Definition gvec fit rows i := avg (fun r => zf fit i r * resp r) rows.
Lemma gram_sym fit rows i j : gram fit rows i j = gram fit rows j i.
Proof. apply avg_ext. intros. lra. Qed.
Lemma gram_minmax fit rows i j : gram fit rows (Nat.min i j) (Nat.max i j) = gram fit rows i j.
Proof.
  destruct (Nat.le_ge_cases i j) as [H|H].
  - rewrite Nat.min_l, Nat.max_r by exact H. reflexivity.
  - rewrite Nat.min_r, Nat.max_l by exact H. apply gram_sym.
Qed.
Lemma construct_spec k fit n rows : rows <> [] -> (0 < k)%nat ->
  exists A b, construct_matrix (suff_stats k fit n rows) fit = Some (n_coef k fit, A, b)
    /\ (forall i j, (i < n_coef k fit)%nat -> (j < n_coef k fit)%nat -> A i j = gram fit rows i j)
    /\ List.length b = n_coef k fit
    /\ (forall i, (i < n_coef k fit)%nat -> nth i b 0 = gvec fit rows i).
Proof.
  intros Hr Hk. destruct k as [|k]; [lia|]. unfold construct_matrix. rewrite last_key_stats.
  unfold suff_stats at 1 2. rewrite !get_all_map.
  2:{ intros c Hc. unfold stat_cols. rewrite !in_app_iff in *. tauto. }
  2:{ intros c Hc. unfold stat_cols. rewrite !in_app_iff in *. tauto. }
  assert (E : (if fit then 1 :: map (stat_value rows)
                      ((if fit then map KX (seq 0 (S k)) else []) ++ map (fun p => KXX (fst p) (snd p)) (triu (S k)))
               else map (stat_value rows)
                      ((if fit then map KX (seq 0 (S k)) else []) ++ map (fun p => KXX (fst p) (snd p)) (triu (S k))))
              = map (fun p => gram fit rows (fst p) (snd p)) (triu (n_coef (S k) fit))).
  { destruct fit; cbn [n_coef app].
    - rewrite (triu_S (S k)), map_app, map_app, !map_map.
      change (seq 0 (S (S k))) with (0%nat :: seq 1 (S k)). cbn [map fst snd].
      cbn [app]. f_equal; [|f_equal].
      + unfold gram. cbn [zf]. rewrite (avg_ext _ (fun _ => 1)) by (intros; lra). rewrite avg_const by exact Hr. reflexivity.
      + rewrite <- seq_shift, map_map. apply map_ext. intros i. cbn [stat_value]. unfold gram. apply avg_ext.
        intros r _. cbn [zf]. lra.
    - rewrite map_map. reflexivity. }
  rewrite E. destruct (symmetrize_spec (n_coef (S k) fit) (gram fit rows)) as [A [HA HA']]. rewrite HA.
  exists A. eexists. split; [reflexivity|]. split; [|split].
  - intros i j Hi Hj. rewrite HA' by assumption. apply gram_minmax.
  - rewrite map_length, app_length, map_length, seq_length. destruct fit; reflexivity.
  - intros i Hi. unfold gvec. destruct fit; cbn [n_coef] in Hi.
    + cbn [app map]. destruct i as [|i].
      * cbn. apply avg_ext. intros. lra.
      * cbn [nth]. rewrite (nth_indep _ 0 (stat_value rows (KXY i))) by (rewrite !map_length, seq_length; lia).
        rewrite map_map, (map_nth (fun x => stat_value rows (KXY x))), seq_nth by lia. reflexivity.
    + cbn [app]. rewrite (nth_indep _ 0 (stat_value rows (KXY i))) by (rewrite !map_length, seq_length; lia).
      rewrite map_map, (map_nth (fun x => stat_value rows (KXY x))), seq_nth by lia. reflexivity.
Qed.

(** ** bilinear forms and quadratic minimization *)
Section Quad.
  Variables (d : nat) (A : mat).
  Definition bil (u v : nat -> R) : R := fsum d (fun i => u i * fsum d (fun j => A i j * v j)).
  Lemma bil_add_l u u' v : bil (fun i => u i + u' i) v = bil u v + bil u' v.
  Proof. unfold bil. rewrite <- fsum_plus. apply fsum_ext. intros. lra. Qed.
  Lemma bil_add_r u v v' : bil u (fun i => v i + v' i) = bil u v + bil u v'.
  Proof.
    unfold bil. rewrite <- fsum_plus. apply fsum_ext. intros i _.
    rewrite <- Rmult_plus_distr_l, <- fsum_plus. apply f_equal. apply fsum_ext. intros. lra.
  Qed.
  Lemma bil_scal_l c u v : bil (fun i => c * u i) v = c * bil u v.
  Proof. unfold bil. rewrite <- fsum_scal. apply fsum_ext. intros. lra. Qed.
  Lemma bil_scal_r c u v : bil u (fun i => c * v i) = c * bil u v.
  Proof.
    unfold bil. rewrite <- fsum_scal. apply fsum_ext. intros i _.
    replace (fsum d (fun j => A i j * (c * v j))) with (c * fsum d (fun j => A i j * v j)); [lra|].
    rewrite <- fsum_scal. apply fsum_ext. intros. lra.
  Qed.
  Lemma bil_ext u u' v v' : (forall i, (i < d)%nat -> u i = u' i) -> (forall i, (i < d)%nat -> v i = v' i) -> bil u v = bil u' v'.
  Proof.
    intros H H'. unfold bil. apply fsum_ext. intros i Hi. rewrite H by exact Hi. apply f_equal.
    apply fsum_ext. intros j Hj. rewrite H' by exact Hj. reflexivity.
  Qed.
  Hypothesis sym : forall i j, (i < d)%nat -> (j < d)%nat -> A i j = A j i.
  Lemma bil_sym u v : bil u v = bil v u.
  Proof.
    unfold bil.
    rewrite (fsum_ext d _ (fun i => fsum d (fun j => u i * (A i j * v j)))) by (intros; rewrite fsum_scal; reflexivity).
    rewrite (fsum_ext d (fun i => v i * _) (fun i => fsum d (fun j => v i * (A i j * u j)))) by (intros; rewrite fsum_scal; reflexivity).
    rewrite fsum_swap. apply fsum_ext. intros j Hj. apply fsum_ext. intros i Hi. rewrite (sym i j) by assumption. lra.
  Qed.
  Variables (b : nat -> R).
  (** half the gradient, and the quadratic *)
  Definition qgrad (w : nat -> R) (i : nat) : R := fsum d (fun j => A i j * w j) - b i.
  Definition qform (w : nat -> R) : R := bil w w - 2 * fsum d (fun i => b i * w i).
  Lemma qform_expand w v :
    qform v = qform w + 2 * fsum d (fun i => (v i - w i) * qgrad w i) + bil (fun i => v i - w i) (fun i => v i - w i).
  Proof.
    assert (E : bil v v = bil w w + 2 * bil (fun i => v i - w i) w + bil (fun i => v i - w i) (fun i => v i - w i)).
    { rewrite (bil_ext v (fun i => w i + (v i - w i)) v (fun i => w i + (v i - w i))) by (intros; lra).
      rewrite bil_add_l, !bil_add_r, (bil_sym w (fun i => v i - w i)). lra. }
    unfold qform. rewrite E.
    assert (E2 : fsum d (fun i => (v i - w i) * qgrad w i)
                 = bil (fun i => v i - w i) w - fsum d (fun i => b i * v i) + fsum d (fun i => b i * w i)).
    { unfold bil, qgrad. rewrite <- fsum_minus, <- fsum_plus. apply fsum_ext. intros. lra. }
    rewrite E2. lra.
  Qed.
  Definition delta (k : nat) (i : nat) : R := if Nat.eqb i k then 1 else 0.
  Lemma bil_delta k : (k < d)%nat -> bil (delta k) (delta k) = A k k.
  Proof.
    intros Hk. unfold bil, delta.
    rewrite (fsum_ext d _ (fun i => if Nat.eqb i k then A i k else 0)).
    - rewrite fsum_delta by exact Hk. reflexivity.
    - intros i _. destruct (Nat.eqb i k); [|lra].
      rewrite (fsum_ext d _ (fun j => if Nat.eqb j k then A i j else 0)) by (intros j _; destruct (Nat.eqb j k); lra).
      rewrite fsum_delta by exact Hk. lra.
  Qed.
  Hypothesis psd : forall u, 0 <= bil u u.
  Lemma quad_min w : (forall i, (i < d)%nat -> qgrad w i = 0) <-> (forall v, qform w <= qform v).
  Proof.
    split.
    - intros H v. rewrite (qform_expand w v). rewrite (fsum_zero d (fun i => (v i - w i) * qgrad w i)).
      + specialize (psd (fun i => v i - w i)). lra.
      + intros i Hi. rewrite H by exact Hi. lra.
    - intros H k Hk.
      assert (P : forall t, 0 <= 2 * t * qgrad w k + t * t * A k k).
      { intros t. specialize (H (fun i => w i + t * delta k i)). rewrite (qform_expand w (fun i => w i + t * delta k i)) in H; cbv beta in H.
        rewrite (fsum_ext d _ (fun i => if Nat.eqb i k then t * qgrad w i else 0)) in H.
        2:{ intros i _. unfold delta. destruct (Nat.eqb i k); lra. }
        rewrite fsum_delta in H by exact Hk.
        rewrite (bil_ext _ (fun i => t * delta k i) _ (fun i => t * delta k i)) in H by (intros; lra).
        rewrite bil_scal_l, bil_scal_r, bil_delta in H by exact Hk. lra. }
      assert (Ha : 0 <= A k k) by (rewrite <- bil_delta by exact Hk; apply psd).
      set (a := A k k) in *. set (g := qgrad w k) in *. clearbody a g.
      destruct (Req_dec g 0) as [E|E]; [exact E|exfalso].
      specialize (P (- g / (a + 1))).
      assert (Q : 2 * (- g / (a + 1)) * g + - g / (a + 1) * (- g / (a + 1)) * a = - (g * g) * (a + 2) / ((a + 1) * (a + 1))).
      { field. lra. }
      rewrite Q in P.
      assert (0 < g * g) by nra.
      assert (- (g * g) * (a + 2) / ((a + 1) * (a + 1)) < 0); [|lra].
      unfold Rdiv. assert (0 < / ((a + 1) * (a + 1))) by (apply Rinv_0_lt_compat; nra).
      assert (0 < g * g * (a + 2)) by (apply Rmult_lt_0_compat; lra).
      assert (0 < g * g * (a + 2) * / ((a + 1) * (a + 1))) by (apply Rmult_lt_0_compat; assumption). lra.
  Qed.
End Quad.
