(** Ridge and OLS from sufficient statistics. *)
From Coq Require Import Reals Lra Lia List Arith Bool.
From Verif Require Import M_Num M_Frame L_Fsum L_Frame M_Models S_Models L_Models.
Import ListNotations.
Open Scope R_scope.
Open Scope list_scope.

Definition coef (w : list R) (i : nat) : R := nth i w 0.
(** 1 for penalized coefficients *)
Definition pen (fit : bool) (i : nat) : R := if fit && Nat.eqb i 0 then 0 else 1.

Lemma predict_zf k fit w r : predict k fit w r = fsum (n_coef k fit) (fun i => coef w i * zf fit i r).
Proof.
  unfold predict, intercept, slope, n_coef, coef. destruct fit.
  - rewrite fsum_shift. cbn [zf]. lra.
  - cbn [zf]. lra.
Qed.
Lemma penalty_sum k fit w f : fsum k (fun i => f (slope fit w i)) = fsum (n_coef k fit) (fun i => pen fit i * f (coef w i)).
Proof.
  unfold slope, n_coef, coef, pen. destruct fit.
  - rewrite fsum_shift. cbn [andb Nat.eqb]. rewrite (fsum_ext k _ (fun i => 1 * f (nth (S i) w 0))) by (intros; lra). lra.
  - apply fsum_ext. intros. cbn [andb]. lra.
Qed.
Lemma gram_quad k fit rows u :
  bil (n_coef k fit) (gram fit rows) u u = avg (fun r => (fsum (n_coef k fit) (fun i => u i * zf fit i r)) ^ 2) rows.
Proof.
  unfold bil, gram.
  rewrite (avg_ext (fun r => _ ^ 2) (fun r => fsum (n_coef k fit) (fun i => fsum (n_coef k fit) (fun j => (u i * zf fit i r) * (u j * zf fit j r))))).
  2:{ intros r _. rewrite <- fsum_prod. lra. }
  rewrite avg_fsum. apply fsum_ext. intros i _. rewrite avg_fsum, <- fsum_scal. apply fsum_ext. intros j _.
  rewrite (avg_ext (fun r => u i * zf fit i r * _) (fun r => (u i * u j) * (zf fit i r * zf fit j r))) by (intros; lra).
  rewrite avg_scal. lra.
Qed.
Lemma gram_psd k fit rows u : 0 <= bil (n_coef k fit) (gram fit rows) u u.
Proof. rewrite gram_quad. apply avg_nonneg. intros r. apply pow2_ge_0. Qed.
Lemma sq_error_avg k fit rows w : rows <> [] ->
  squared_error k fit rows w
  = INR (List.length rows) * (avg (fun r => resp r ^ 2) rows
      + qform (n_coef k fit) (gram fit rows) (gvec fit rows) (coef w)).
Proof.
  intros Hr. assert (Hn := size_pos rows Hr).
  unfold qform. rewrite gram_quad.
  replace (fsum (n_coef k fit) (fun i => gvec fit rows i * coef w i))
    with (avg (fun r => resp r * predict k fit w r) rows).
  - rewrite (avg_ext (fun r => (fsum _ _) ^ 2) (fun r => predict k fit w r ^ 2)) by (intros; rewrite predict_zf; reflexivity).
    replace (avg (fun r => resp r ^ 2) rows + (avg (fun r => predict k fit w r ^ 2) rows - 2 * avg (fun r => resp r * predict k fit w r) rows))
      with (avg (fun r => (resp r - predict k fit w r) ^ 2) rows).
    + unfold avg, squared_error. field. lra.
    + rewrite (avg_ext _ (fun r => resp r ^ 2 + (predict k fit w r ^ 2 + (- 2) * (resp r * predict k fit w r)))) by (intros; ring).
      rewrite !avg_plus, avg_scal. lra.
  - rewrite (avg_ext _ (fun r => fsum (n_coef k fit) (fun i => coef w i * (zf fit i r * resp r)))).
    + rewrite avg_fsum. apply fsum_ext. intros i _. rewrite avg_scal. unfold gvec. lra.
    + intros r _. rewrite predict_zf, <- fsum_scal. apply fsum_ext. intros. lra.
Qed.

(** the penalized matrix *)
Definition rmat fit rows alpha i j := gram fit rows i j + alpha / INR (List.length rows) * (if Nat.eqb i j then pen fit i else 0).
Lemma bil_plus d A B u v : bil d (fun i j => A i j + B i j) u v = bil d A u v + bil d B u v.
Proof.
  unfold bil. rewrite <- fsum_plus. apply fsum_ext. intros i _. rewrite <- Rmult_plus_distr_l, <- fsum_plus. apply f_equal.
  apply fsum_ext. intros. lra.
Qed.
Lemma bil_diag d (D : nat -> R) u v : bil d (fun i j => if Nat.eqb i j then D i else 0) u v = fsum d (fun i => D i * (u i * v i)).
Proof.
  unfold bil. apply fsum_ext. intros i Hi.
  rewrite (fsum_ext d _ (fun j => if Nat.eqb j i then D i * v j else 0)).
  - rewrite fsum_delta by exact Hi. lra.
  - intros j _. rewrite (Nat.eqb_sym j i). destruct (Nat.eqb_spec i j); subst; lra.
Qed.
Lemma bil_mat_ext d A B u v : (forall i j, (i < d)%nat -> (j < d)%nat -> A i j = B i j) -> bil d A u v = bil d B u v.
Proof.
  intros H. unfold bil. apply fsum_ext. intros i Hi. apply f_equal. apply fsum_ext. intros j Hj. rewrite H by assumption. reflexivity.
Qed.
Lemma rmat_quad k fit rows alpha u :
  bil (n_coef k fit) (rmat fit rows alpha) u u = bil (n_coef k fit) (gram fit rows) u u
    + alpha / INR (List.length rows) * fsum (n_coef k fit) (fun i => pen fit i * (u i * u i)).
Proof.
  rewrite (bil_mat_ext _ _ (fun i j => gram fit rows i j + (if Nat.eqb i j then alpha / INR (List.length rows) * pen fit i else 0))).
  2:{ intros i j _ _. unfold rmat. destruct (Nat.eqb i j); lra. }
  rewrite bil_plus, bil_diag. rewrite <- fsum_scal. apply f_equal. apply fsum_ext. intros. lra.
Qed.
Lemma pen_nonneg fit i : 0 <= pen fit i.
Proof. unfold pen. destruct (fit && Nat.eqb i 0); lra. Qed.
Lemma rmat_psd k fit rows alpha u : rows <> [] -> 0 <= alpha -> 0 <= bil (n_coef k fit) (rmat fit rows alpha) u u.
Proof.
  intros Hr Ha. rewrite rmat_quad. assert (H := gram_psd k fit rows u). assert (Hn := size_pos rows Hr).
  assert (0 <= alpha / INR (List.length rows)) by (apply Rmult_le_pos; [lra|left; apply Rinv_0_lt_compat; lra]).
  assert (0 <= fsum (n_coef k fit) (fun i => pen fit i * (u i * u i))).
  { apply fsum_nonneg. intros i _. apply Rmult_le_pos; [apply pen_nonneg|nra]. }
  nra.
Qed.
Lemma rmat_sym fit rows alpha i j : rmat fit rows alpha i j = rmat fit rows alpha j i.
Proof.
  unfold rmat. rewrite gram_sym, (Nat.eqb_sym j i). destruct (Nat.eqb_spec i j) as [->|]; reflexivity.
Qed.
Lemma ridge_loss_q k fit alpha rows w : rows <> [] ->
  ridge_loss k fit alpha rows w
  = INR (List.length rows) * (avg (fun r => resp r ^ 2) rows
      + qform (n_coef k fit) (rmat fit rows alpha) (gvec fit rows) (coef w)).
Proof.
  intros Hr. assert (Hn := size_pos rows Hr).
  unfold ridge_loss. rewrite sq_error_avg by exact Hr. rewrite (penalty_sum k fit w (fun x => x ^ 2)).
  unfold qform. rewrite rmat_quad.
  rewrite (fsum_ext _ (fun i => pen fit i * coef w i ^ 2) (fun i => pen fit i * (coef w i * coef w i))) by (intros; ring).
  field. lra.
Qed.

Lemma list_of_vec d (v : nat -> R) : exists l, List.length l = d /\ forall i, (i < d)%nat -> coef l i = v i.
Proof.
  exists (map v (seq 0 d)). split; [rewrite map_length, seq_length; reflexivity|].
  intros i Hi. unfold coef. rewrite (nth_indep _ 0 (v 0%nat)) by (rewrite map_length, seq_length; exact Hi).
  rewrite map_nth, seq_nth by exact Hi. reflexivity.
Qed.
Lemma qform_ext d A b u v : (forall i, (i < d)%nat -> u i = v i) -> qform d A b u = qform d A b v.
Proof.
  intros H. unfold qform. rewrite (bil_ext d A u v u v H H). apply f_equal. apply f_equal.
  apply fsum_ext. intros i Hi. rewrite H by exact Hi. reflexivity.
Qed.
Lemma ridge_min_solves k fit alpha rows w : rows <> [] -> 0 <= alpha ->
  (minimizes (n_coef k fit) (ridge_loss k fit alpha rows) w <-> solves (n_coef k fit) (rmat fit rows alpha) (gvec fit rows) w).
Proof.
  intros Hr Ha. assert (Hn := size_pos rows Hr).
  pose proof (quad_min (n_coef k fit) (rmat fit rows alpha) (fun i j _ _ => rmat_sym fit rows alpha i j) (gvec fit rows)
                (fun u => rmat_psd k fit rows alpha u Hr Ha) (coef w)) as Q.
  unfold minimizes, solves. split; intros [Hl H]; (split; [exact Hl|]).
  - intros i Hi. apply Rminus_diag_uniq. apply (proj2 Q); [|exact Hi]. intros v.
    destruct (list_of_vec (n_coef k fit) v) as [l [Hl' Hv]]. specialize (H l Hl').
    rewrite !ridge_loss_q in H by exact Hr. rewrite (qform_ext _ _ _ (coef l) v Hv) in H.
    apply Rmult_le_reg_l in H; [lra|exact Hn].
  - intros v _. rewrite !ridge_loss_q by exact Hr. apply Rmult_le_compat_l; [lra|]. apply Rplus_le_compat_l.
    apply (proj1 Q). intros i Hi. unfold qgrad. specialize (H i Hi). unfold coef. lra.
Qed.
Lemma solves_ext d A A' b b' w : (forall i j, (i < d)%nat -> (j < d)%nat -> A i j = A' i j) -> (forall i, (i < d)%nat -> b i = b' i) ->
  solves d A b w <-> solves d A' b' w.
Proof.
  intros HA Hb. unfold solves. split; intros [Hl H]; (split; [exact Hl|]); intros i Hi.
  - rewrite <- Hb by exact Hi. rewrite <- H by exact Hi. apply fsum_ext. intros j Hj. rewrite HA by assumption. reflexivity.
  - rewrite Hb by exact Hi. rewrite <- H by exact Hi. apply fsum_ext. intros j Hj. rewrite HA by assumption. reflexivity.
Qed.
Lemma get_KN k fit rows : get (suff_stats k fit true rows) KN = Some (INR (List.length rows)).
Proof.
  unfold suff_stats. rewrite get_map; [reflexivity|]. unfold stat_cols. rewrite !in_app_iff. cbn. tauto.
Qed.
Lemma ridge_magic_plain k fit norm alpha rows w : rows <> [] -> (0 < k)%nat -> 0 <= alpha -> (fit && norm = false)%bool ->
  (ridge_magic k fit norm alpha rows w <-> minimizes (n_coef k fit) (ridge_loss k fit alpha rows) w).
Proof.
  intros Hr Hk Ha Hf. rewrite ridge_min_solves by assumption.
  unfold ridge_magic, ridge_coefs, ridge_system. rewrite Hf, get_KN.
  destruct (construct_spec k fit true rows Hr Hk) as [A [b [E [HA [_ Hb]]]]]. rewrite E.
  assert (X : solves (n_coef k fit) (fun i j => A i j + alpha / INR (List.length rows) *
                 (if Nat.eqb i j then (if fit && Nat.eqb i 0 then 0 else 1) else 0)) (fun i => nth i b 0) w
              <-> solves (n_coef k fit) (rmat fit rows alpha) (gvec fit rows) w).
  { apply solves_ext; [|exact Hb]. intros i j Hi Hj. rewrite HA by assumption. reflexivity. }
  rewrite <- X. split.
  - intros [d [A' [b' [E' H]]]]. injection E' as <- <- <-. exact H.
  - intros H. do 3 eexists. split; [reflexivity|exact H].
Qed.

(** ** uniqueness *)
Lemma avg_sq_zero f rows : rows <> [] -> avg (fun r => f r ^ 2) rows = 0 -> forall r, In r rows -> f r = 0.
Proof.
  intros Hr H. assert (Hn := size_pos rows Hr).
  assert (E : Rsum (map (fun r => f r ^ 2) rows) = 0).
  { unfold avg in H. apply (Rmult_eq_reg_r (/ INR (List.length rows))); [|apply Rinv_neq_0_compat; lra]. unfold Rdiv in H. lra. }
  clear H Hr Hn. induction rows as [|r0 rows IH]; intros r Hin; [destruct Hin|].
  cbn [map Rsum] in *.
  assert (0 <= Rsum (map (fun r => f r ^ 2) rows)) by (apply (Rsum_map_nonneg (fun r => f r ^ 2)); intros; apply pow2_ge_0).
  assert (0 <= f r0 ^ 2) by apply pow2_ge_0.
  destruct Hin as [->|Hin].
  - assert (f r ^ 2 = 0) by lra. nra.
  - apply IH; [lra|exact Hin].
Qed.
Lemma ridge_unique k fit alpha rows w w' : rows <> [] -> 0 < alpha ->
  solves (n_coef k fit) (rmat fit rows alpha) (gvec fit rows) w ->
  solves (n_coef k fit) (rmat fit rows alpha) (gvec fit rows) w' -> w = w'.
Proof.
  intros Hr Ha [Hl H] [Hl' H']. assert (Hn := size_pos rows Hr).
  set (d := n_coef k fit) in *. set (u := fun i => coef w i - coef w' i).
  assert (E : bil d (rmat fit rows alpha) u u = 0).
  { unfold bil. apply fsum_zero. intros i Hi. specialize (H i Hi). specialize (H' i Hi).
    replace (fsum d (fun j => rmat fit rows alpha i j * u j)) with 0; [lra|].
    rewrite (fsum_ext d _ (fun j => rmat fit rows alpha i j * nth j w 0 - rmat fit rows alpha i j * nth j w' 0)).
    - rewrite fsum_minus. lra.
    - intros j _. unfold u, coef. lra. }
  unfold d in E. rewrite rmat_quad in E. assert (P := gram_psd k fit rows u).
  assert (Q : 0 <= fsum (n_coef k fit) (fun i => pen fit i * (u i * u i))).
  { apply fsum_nonneg. intros i _. apply Rmult_le_pos; [apply pen_nonneg|nra]. }
  assert (Hp : 0 < alpha / INR (List.length rows)) by (apply Rmult_lt_0_compat; [lra|apply Rinv_0_lt_compat; lra]).
  assert (Q0 : fsum (n_coef k fit) (fun i => pen fit i * (u i * u i)) = 0) by nra.
  assert (G0 : bil (n_coef k fit) (gram fit rows) u u = 0) by (rewrite Q0 in E; lra).
  assert (U1 : forall i, (i < d)%nat -> pen fit i = 1 -> u i = 0).
  { intros i Hi Hpen. 
    rewrite (fsum_ext _ _ (fun i => (pen fit i * u i) * (pen fit i * u i))) in Q0.
    - apply fsum_sq_zero with (i := i) in Q0; [|exact Hi]. rewrite Hpen in Q0. lra.
    - intros j _. unfold pen. destruct (fit && Nat.eqb j 0); lra. }
  assert (U : forall i, (i < d)%nat -> u i = 0).
  { intros i Hi. destruct (fit && Nat.eqb i 0) eqn:F.
    - apply andb_prop in F. destruct F as [-> F]. apply Nat.eqb_eq in F. subst i.
      rewrite gram_quad in G0. destruct rows as [|r rows]; [congruence|].
      pose proof (avg_sq_zero _ _ Hr G0 r (or_introl eq_refl)) as G1. cbv beta in G1. cbn [n_coef] in G1.
      rewrite fsum_shift in G1. rewrite (fsum_zero k) in G1; [cbn [zf] in G1; lra|].
      intros j Hj. rewrite U1; [lra|cbn; lia|reflexivity].
    - apply U1; [exact Hi|]. unfold pen. rewrite F. reflexivity. }
  apply (nth_ext _ _ 0 0); [congruence|]. intros i Hi. rewrite Hl in Hi. specialize (U i Hi). unfold u, coef in U. lra.
Qed.
