(** The gradient and Hessian queries, in terms of the loss. *)
From Coq Require Import Reals Lra Lia List Arith Bool.
From Verif Require Import M_Num M_Frame L_Fsum M_Models S_Models M_Logistic S_Logistic L_Models L_Ridge L_RidgeNorm L_Fista L_Logistic.
Import ListNotations.
Open Scope R_scope.
Open Scope list_scope.

(** ** lists *)
Lemma last_nth (l : list R) k : List.length l = S k -> last l 0 = nth k l 0.
Proof.
  revert k. induction l as [|a l IH]; intros k H; [discriminate|]. cbn in H. injection H as H.
  destruct l as [|b l]; [cbn in H; subst; reflexivity|]. destruct k as [|k]; [discriminate|].
  change (last (a :: b :: l) 0) with (last (b :: l) 0). rewrite (IH k H). reflexivity.
Qed.
Lemma removelast_nth (l : list R) k i : List.length l = S k -> (i < k)%nat -> nth i (removelast l) 0 = nth i l 0.
Proof.
  revert k i. induction l as [|a l IH]; intros k i H Hi; [discriminate|]. cbn in H. injection H as H.
  destruct l as [|b l]; [cbn in H; lia|]. destruct k as [|k]; [lia|].
  change (removelast (a :: b :: l)) with (a :: removelast (b :: l)). destruct i as [|i]; [reflexivity|]. cbn [nth].
  apply (IH k); [exact H|lia].
Qed.
Lemma removelast_length (l : list R) k : List.length l = S k -> List.length (removelast l) = k.
Proof.
  revert k. induction l as [|a l IH]; intros k H; [discriminate|]. cbn in H. injection H as H.
  destruct l as [|b l]; [cbn in H; subst; reflexivity|]. destruct k as [|k]; [discriminate|].
  change (removelast (a :: b :: l)) with (a :: removelast (b :: l)). cbn [List.length]. f_equal. apply IH. exact H.
Qed.
Lemma report_length k fit c : List.length c = n_xs k fit -> List.length (report fit c) = n_coef k fit.
Proof.
  unfold report, n_xs, n_coef. destruct fit; intros H; [|exact H]. cbn. f_equal. apply removelast_length. exact H.
Qed.
Lemma report_onto k fit w : List.length w = n_coef k fit -> exists c, List.length c = n_xs k fit /\ report fit c = w.
Proof.
  unfold report, n_xs, n_coef. destruct fit; intros H; [|exists w; split; [exact H|reflexivity]].
  destruct w as [|a w]; [discriminate|]. exists (w ++ [a]). split.
  - rewrite app_length. cbn in *. lia.
  - rewrite last_last, removelast_last. reflexivity.
Qed.
Lemma slope_report k fit c i : List.length c = n_xs k fit -> (i < k)%nat -> slope fit (report fit c) i = nth i c 0.
Proof.
  unfold slope, report, n_xs. destruct fit; intros H Hi; [|reflexivity]. cbn [nth]. apply (removelast_nth c k); assumption.
Qed.
Lemma xs_feat k i r : (i < k)%nat -> xs k i r = feat i r.
Proof. intros H. unfold xs. apply Nat.ltb_lt in H. rewrite H. reflexivity. Qed.
Lemma xs_last k r : xs k k r = 1.
Proof. unfold xs. rewrite Nat.ltb_irrefl. reflexivity. Qed.
Lemma predict_report k fit c r : List.length c = n_xs k fit -> predict k fit (report fit c) r = z_of k fit c r.
Proof.
  intros H. unfold predict, z_of.
  rewrite (fsum_ext k _ (fun i => nth i c 0 * xs k i r)).
  2:{ intros i Hi. rewrite (slope_report k) by assumption. rewrite xs_feat by exact Hi. reflexivity. }
  unfold n_xs in *. destruct fit; cbn [intercept].
  - cbn [fsum]. rewrite xs_last. unfold intercept, report. cbn [nth]. rewrite (last_nth c k H). lra.
  - unfold intercept. lra.
Qed.

(** ** loss and gradient as functions *)
Section Loss.
  Variables (k : nat) (fit : bool) (pen : option R) (rows : list row).
  Notation m := (n_xs k fit).
  Notation n := (INR (List.length rows)).
  (** the weight of w_i^2 / 2 in the penalty *)
  Definition pw (i : nat) : R := match pen with Some c => if Nat.ltb i k then / (n * c) else 0 | None => 0 end.
  Definition ploss (w : nat -> R) : R := lloss m (xs k) rows w + fsum m (fun i => pw i * (w i * w i) / 2).
  Definition pgrad (w : nat -> R) (j : nat) : R := lgrad m (xs k) rows w j + pw j * w j.
  Lemma k_le_m : (k <= m)%nat.
  Proof. unfold n_xs. destruct fit; lia. Qed.
  Lemma fsum_cut f : (forall i, (k <= i)%nat -> f i = 0) -> fsum m f = fsum k f.
  Proof. intros H. unfold n_xs. destruct fit; [|reflexivity]. cbn [fsum]. rewrite (H k) by lia. lra. Qed.
  Lemma logistic_ploss c : List.length c = m -> logistic_loss k fit pen rows (report fit c) = ploss (coef c).
  Proof.
    intros Hc. unfold logistic_loss, ploss. apply f_equal2.
    - unfold mean_log_loss. fold (avg (fun r => log_loss (predict k fit (report fit c) r) (resp r)) rows).
      apply avg_ext. intros r _. rewrite predict_report by exact Hc. reflexivity.
    - rewrite fsum_cut.
      2:{ intros i Hi. unfold pw. destruct pen; [|lra]. replace (Nat.ltb i k) with false by (symmetry; apply Nat.ltb_ge; exact Hi). lra. }
      unfold pw. destruct pen as [cc|].
      + unfold Rdiv. rewrite <- fsum_scal_r. apply fsum_ext. intros i Hi. rewrite (slope_report k) by assumption.
        replace (Nat.ltb i k) with true by (symmetry; apply Nat.ltb_lt; exact Hi).
        rewrite Rmult_assoc, (Rinv_mult 2). unfold coef. ring.
      + symmetry. apply fsum_zero. intros. lra.
  Qed.
  Lemma grad_query_nth c j : (j < m)%nat -> nth j (grad_query k fit pen c rows) 0 = pgrad (coef c) j.
  Proof.
    intros Hj. unfold grad_query. rewrite nth_map_seq by exact Hj. unfold pgrad. apply f_equal2.
    - apply avg_ext. intros r _. rewrite sig_minus_b_eq. reflexivity.
    - unfold pw. destruct pen as [cc|]; [|lra]. destruct (Nat.ltb j k); [|lra]. unfold coef, Rdiv. rewrite Rinv_mult. ring.
  Qed.
  Lemma coef_set_nth c j t i : (i < List.length c)%nat -> coef (set_nth j t c) i = upd (coef c) j t i.
  Proof. intros Hi. unfold coef, set_nth. rewrite nth_map_seq by exact Hi. reflexivity. Qed.
  Lemma set_nth_length c j t : List.length (set_nth j t c) = List.length c.
  Proof. unfold set_nth. rewrite map_length, seq_length. reflexivity. Qed.
  Lemma ploss_ext u v : (forall i, (i < m)%nat -> u i = v i) -> ploss u = ploss v.
  Proof.
    intros H. unfold ploss. rewrite (lloss_ext m (xs k) rows u v H). apply f_equal. apply fsum_ext. intros i Hi. rewrite H by exact Hi. reflexivity.
  Qed.
  Lemma ploss_derivative w j : (j < m)%nat -> derivable_pt_lim (fun t => ploss (upd w j t)) (w j) (pgrad w j).
  Proof.
    intros Hj. unfold ploss, pgrad.
    apply (derivable_pt_lim_plus (fun t => lloss m (xs k) rows (upd w j t)) (fun t => fsum m (fun i => pw i * (upd w j t i * upd w j t i) / 2))).
    - apply lloss_derivative. exact Hj.
    - apply d_ext with (f := plus_fct (fct_cte (fsum m (fun i => if Nat.eqb i j then 0 else pw i * (w i * w i) / 2))) (mult_real_fct (pw j / 2) (mult_fct id id))).
      + intros t. unfold plus_fct, fct_cte, mult_real_fct, mult_fct, id.
        rewrite (fsum_ext m (fun i => pw i * (upd w j t i * upd w j t i) / 2)
                   (fun i => (if Nat.eqb i j then 0 else pw i * (w i * w i) / 2) + (if Nat.eqb i j then pw i * (t * t) / 2 else 0))).
        * rewrite fsum_plus, fsum_delta by exact Hj. apply f_equal. unfold Rdiv. ring.
        * intros i _. unfold upd. destruct (Nat.eqb i j); lra.
      + replace (pw j * w j) with (0 + pw j / 2 * (1 * id (w j) + id (w j) * 1)) by (unfold id; field).
        apply derivable_pt_lim_plus; [apply derivable_pt_lim_const|]. apply derivable_pt_lim_scal, derivable_pt_lim_mult; apply derivable_pt_lim_id.
  Qed.
  Definition phess (w : nat -> R) (i j : nat) : R := lhess m (xs k) rows w i j + (if Nat.eqb i j then pw i else 0).
  Lemma pgrad_derivative w i j : (j < m)%nat -> derivable_pt_lim (fun t => pgrad (upd w j t) i) (w j) (phess w i j).
  Proof.
    intros Hj. unfold pgrad, phess.
    apply (derivable_pt_lim_plus (fun t => lgrad m (xs k) rows (upd w j t) i) (fun t => pw i * upd w j t i)).
    - apply lgrad_derivative. exact Hj.
    - unfold upd. destruct (Nat.eqb i j).
      + apply d_ext with (f := mult_real_fct (pw i) id); [reflexivity|].
        assert (Q := derivable_pt_lim_scal id (pw i) (w j) 1 (derivable_pt_lim_id (w j))). rewrite Rmult_1_r in Q. exact Q.
      + apply (derivable_pt_lim_const (pw i * w i)).
  Qed.
  Hypothesis Hpw : forall i, 0 <= pw i.
  Lemma ploss_below u v : ploss v + fsum m (fun i => (u i - v i) * pgrad v i) <= ploss u.
  Proof.
    unfold ploss, pgrad. assert (Q := lloss_below m (xs k) rows u v).
    rewrite (fsum_ext m (fun i => (u i - v i) * (lgrad m (xs k) rows v i + pw i * v i)) (fun i => (u i - v i) * lgrad m (xs k) rows v i + pw i * ((u i - v i) * v i))) by (intros; ring).
    rewrite fsum_plus.
    assert (P : fsum m (fun i => pw i * (v i * v i) / 2) + fsum m (fun i => pw i * ((u i - v i) * v i)) <= fsum m (fun i => pw i * (u i * u i) / 2)).
    { rewrite <- fsum_plus. apply fsum_le. intros i _. specialize (Hpw i).
      assert (0 <= pw i * ((u i - v i) * (u i - v i))) by (apply Rmult_le_pos; [exact Hpw|apply (Rle_0_sqr (u i - v i))]). lra. }
    lra.
  Qed.
  (** a zero gradient is a minimum *)
  Lemma stationary_min w : (forall j, (j < m)%nat -> pgrad w j = 0) <-> (forall v, ploss w <= ploss v).
  Proof.
    split.
    - intros H v. assert (Q := ploss_below v w). rewrite fsum_zero in Q; [lra|]. intros i Hi. rewrite H by exact Hi. lra.
    - intros H j Hj. assert (D := ploss_derivative w j Hj).
      pose (pr := exist _ (pgrad w j) D : derivable_pt (fun t => ploss (upd w j t)) (w j)).
      assert (E := deriv_minimum (fun t => ploss (upd w j t)) (w j - 1) (w j + 1) (w j) pr ltac:(lra) ltac:(lra)).
      rewrite <- (derive_pt_eq_0 _ _ _ pr D). apply E. intros t _ _.
      rewrite (ploss_ext (upd w j (w j)) w); [apply H|]. intros i _. unfold upd. destruct (Nat.eqb_spec i j) as [->|]; reflexivity.
  Qed.
End Loss.

(** ** the Hessian columns *)
Fixpoint diag (k m : nat) : list nat :=
  match k, m with S k', S m' => 0%nat :: map (fun x => (x + S m')%nat) (diag k' m') | _, _ => [] end.
Lemma cumsum_shift l a b : cumsum (a + b) l = map (fun x => (x + b)%nat) (cumsum a l).
Proof.
  revert a. induction l as [|x l IH]; intros a; [reflexivity|]. cbn [cumsum map]. f_equal; [lia|].
  rewrite <- IH. f_equal. lia.
Qed.
Lemma hess_diag_idx_diag k m : (S k <= m)%nat -> hess_diag_idx (S k) m = diag (S k) m.
Proof.
  revert m. induction k as [|k IH]; intros m H.
  - destruct m as [|m]; [lia|]. reflexivity.
  - destruct m as [|m]; [lia|]. cbn [diag]. unfold hess_diag_idx. f_equal.
    replace (S (S k) - 1)%nat with (S k) by lia. cbn [seq map cumsum].
    change (match m with O => [] | S m' => 0%nat :: map (fun x => (x + S m')%nat) (diag k m') end) with (diag (S k) m).
    rewrite <- (IH m) by lia. unfold hess_diag_idx. cbn [map].
    replace (0 + (S m - 0))%nat with (0 + S m)%nat by lia. rewrite cumsum_shift. apply (f_equal (cons _)). apply f_equal. apply f_equal.
    rewrite <- seq_shift, map_map. replace (S k - 1)%nat with k by lia. apply map_ext. intros i. lia.
Qed.
Lemma existsb_map_add t b l : existsb (Nat.eqb (b + t)) (map (fun x => (x + b)%nat) l) = existsb (Nat.eqb t) l.
Proof.
  induction l as [|x l IH]; [reflexivity|]. cbn [map existsb]. rewrite IH. f_equal.
  destruct (Nat.eqb_spec t x); destruct (Nat.eqb_spec (b + t) (x + b)); try reflexivity; lia.
Qed.
Lemma existsb_map_small t b l : (t < b)%nat -> existsb (Nat.eqb t) (map (fun x => (x + b)%nat) l) = false.
Proof.
  intros H. induction l as [|x l IH]; [reflexivity|]. cbn [map existsb]. rewrite IH.
  destruct (Nat.eqb_spec t (x + b)); [lia|reflexivity].
Qed.
Lemma diag_spec m : forall k t p, (k <= m)%nat -> nth_error (triu m) t = Some p ->
  existsb (Nat.eqb t) (diag k m) = Nat.eqb (fst p) (snd p) && Nat.ltb (fst p) k.
Proof.
  induction m as [|m IH]; intros k t p Hk H.
  - destruct t; discriminate.
  - destruct k as [|k].
    { cbn [diag existsb]. symmetry. apply andb_false_r. }
    cbn [diag existsb]. rewrite triu_S in H.
    destruct (Nat.lt_ge_cases t (S m)) as [Ht|Ht].
    + rewrite nth_error_app1 in H by (rewrite map_length, seq_length; exact Ht).
      rewrite nth_error_map in H. rewrite (nth_error_nth' _ 0%nat) in H by (rewrite seq_length; exact Ht). rewrite seq_nth in H by exact Ht.
      cbn in H. injection H as <-. cbn [fst snd]. rewrite existsb_map_small by exact Ht.
      rewrite orb_false_r, (Nat.eqb_sym t 0). cbn. destruct t; reflexivity.
    + rewrite nth_error_app2 in H by (rewrite map_length, seq_length; exact Ht).
      rewrite map_length, seq_length, nth_error_map in H.
      destruct (nth_error (triu m) (t - S m)) as [q|] eqn:E; [|discriminate]. cbn in H. injection H as <-. cbn [fst snd].
      replace (Nat.eqb t 0) with false by (symmetry; apply Nat.eqb_neq; lia). cbn [orb].
      replace t with (S m + (t - S m))%nat at 1 by lia. rewrite existsb_map_add. rewrite (IH k (t - S m)%nat q) by (try lia; exact E).
      reflexivity.
Qed.
Lemma map_combine_seq {A} (F : nat -> R -> R) (g G : A -> R) (l : list A) s :
  (forall t p, nth_error l t = Some p -> F (s + t)%nat (g p) = G p) ->
  map (fun ie => F (fst ie) (snd ie)) (combine (seq s (List.length (map g l))) (map g l)) = map G l.
Proof.
  revert s. induction l as [|a l IH]; intros s H; [reflexivity|].
  cbn [map List.length seq combine fst snd]. f_equal.
  - rewrite <- (H 0%nat a eq_refl). f_equal. lia.
  - apply IH. intros t p Hp. rewrite <- (H (S t) p Hp). f_equal. lia.
Qed.
Lemma hess_query_spec k fit pen c rows : (0 < k)%nat ->
  exists H, symmetrize (hess_query k fit pen c rows) = Some (n_xs k fit, H)
    /\ forall i j, (i < n_xs k fit)%nat -> (j < n_xs k fit)%nat -> H i j = phess k fit pen rows (coef c) i j.
Proof.
  intros Hk. set (m := n_xs k fit).
  set (G := fun i j => phess k fit pen rows (coef c) i j).
  assert (E : hess_query k fit pen c rows = map (fun p => G (fst p) (snd p)) (triu m)).
  { unfold hess_query. fold m.
    set (g := fun p : nat * nat => avg (fun r => xs k (fst p) r * xs k (snd p) r * (- sig_z (z_of k fit c r) * sig_minus_b (z_of k fit c r) 1)) rows).
    assert (Eg : forall p, g p = lhess m (xs k) rows (coef c) (fst p) (snd p)).
    { intros p. unfold g, lhess. apply avg_ext. intros r _. rewrite sig_z_eq, sig_minus_b_eq.
      change (z_of k fit c r) with (score m (xs k) (coef c) r). ring. }
    destruct pen as [cc|].
    - assert (Q := map_combine_seq (fun t e => e + (if existsb (Nat.eqb t) (hess_diag_idx k m) then 1 / (INR (List.length rows) * cc) else 0))
                     g (fun p => G (fst p) (snd p)) (triu m) 0).
      apply Q. intros t p Hp. cbn [plus]. rewrite Eg. unfold G, phess. apply f_equal. fold m.
      assert (Hkm : (k <= m)%nat) by (apply k_le_m). destruct k as [|k']; [lia|].
      rewrite hess_diag_idx_diag by exact Hkm. rewrite (diag_spec m (S k') t p Hkm Hp). unfold pw.
      destruct (Nat.eqb (fst p) (snd p)); cbn [andb]; [|reflexivity]. destruct (Nat.ltb (fst p) (S k')); [unfold Rdiv; ring|reflexivity].
    - apply map_ext. intros p. rewrite Eg. unfold G, phess, pw. destruct (Nat.eqb (fst p) (snd p)); rewrite Rplus_0_r; reflexivity. }
  rewrite E. destruct (symmetrize_spec m G) as [H [EH HH]]. exists H. split; [exact EH|].
  intros i j Hi Hj. rewrite HH by assumption. unfold G.
  assert (S : forall a b, phess k fit pen rows (coef c) a b = phess k fit pen rows (coef c) b a).
  { intros a b. unfold phess, lhess. rewrite (Nat.eqb_sym b a). apply f_equal2.
    - apply avg_ext. intros r _. ring.
    - destruct (Nat.eqb_spec a b) as [->|]; reflexivity. }
  destruct (Nat.le_ge_cases i j) as [L|L].
  - rewrite Nat.min_l, Nat.max_r by exact L. reflexivity.
  - rewrite Nat.min_r, Nat.max_l by exact L. apply S.
Qed.
