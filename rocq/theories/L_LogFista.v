(** Convergence of the proximal iteration for logistic regression. *)
From Coq Require Import Reals Lra Lia List Arith Bool.
From Verif Require Import M_Num M_Frame L_Fsum M_Models S_Models M_ElasticNet M_Logistic S_Logistic L_Models L_Ridge L_RidgeNorm L_Fista L_Logistic L_Logistic2 L_LogSlices.
Import ListNotations.
Open Scope R_scope.
Open Scope list_scope.

Definition free_last (k : nat) (fit : bool) (j : nat) : bool := fit && Nat.eqb j (n_xs k fit - 1).
Lemma nth_map_enum (F : nat * R -> R) u j : (j < List.length u)%nat ->
  nth j (map F (combine (seq 0 (List.length u)) u)) 0 = F (j, nth j u 0).
Proof.
  intros Hj. rewrite (nth_indep _ 0 (F (0%nat, 0))) by (rewrite map_length, combine_length, seq_length; lia).
  rewrite map_nth, combine_nth by apply seq_length. rewrite seq_nth by exact Hj. reflexivity.
Qed.

Lemma nth_zeros (l : list R) j : nth j (map (fun _ => 0) l) 0 = 0.
Proof. revert j. induction l as [|a l IH]; intros [|j]; try reflexivity. apply IH. Qed.
Section Run.
  Variables (k : nat) (fit : bool) (rows : list row) (tol : R) (a1 a2 step : R).
  Notation m := (n_xs k fit).
  Notation lg := (lgrad m (xs k) rows).
  Notation it := (run lg a1 a2 step (free_last k fit)).
  Definition par : R * R * R := (step, a2 * step + 1, a1 * step / (a2 * step + 1)).
  Lemma nth_combine_pair (F : R * R -> R) (a b : list R) j : List.length a = m -> List.length b = m -> (j < m)%nat ->
    nth j (map F (combine a b)) 0 = F (nth j a 0, nth j b 0).
  Proof.
    intros Ha Hb Hj. rewrite (nth_indep _ 0 (F (0, 0))) by (rewrite map_length, combine_length; lia).
    rewrite map_nth. rewrite combine_nth by lia. reflexivity.
  Qed.
  Lemma momentum_nth i c dl d j : List.length c = m -> List.length dl = m -> (j < m)%nat ->
    nth j (momentum i (c, dl, d)) 0 = nth j c 0 + (INR i - 1) / (INR i + 2) * nth j dl 0.
  Proof.
    intros Hc Hd Hj. unfold momentum.
    apply (nth_combine_pair (fun p => fst p + (INR i - 1) / (INR i + 2) * snd p)); assumption.
  Qed.
  Lemma momentum_length i c dl d : List.length c = m -> List.length dl = m -> List.length (momentum i (c, dl, d)) = m.
  Proof. intros Hc Hd. unfold momentum. rewrite map_length, combine_length. lia. Qed.
  Lemma fista_slice_spec init i c dl : List.length c = m -> List.length dl = m ->
    (forall j, (j < m)%nat -> nth j c 0 = fst (it init i) j) -> (forall j, (j < m)%nat -> nth j dl 0 = snd (it init i) j) ->
    exists c' dl' d', fista_slice k fit tol par i (c, dl, false) (g_of k fit None rows (momentum i (c, dl, false))) = (c', dl', d')
      /\ List.length c' = m /\ List.length dl' = m
      /\ (forall j, (j < m)%nat -> nth j c' 0 = fst (it init (S i)) j)
      /\ (forall j, (j < m)%nat -> nth j dl' 0 = snd (it init (S i)) j)
      /\ (d' = true -> lmax dl' < tol).
  Proof.
    intros Hc Hd Ec Ed. unfold fista_slice, par.
    set (v := momentum i (c, dl, false)).
    assert (Hv : List.length v = m) by (apply momentum_length; assumption).
    set (gq := g_of k fit None rows v).
    assert (Hg : List.length gq = m) by (apply grad_query_length).
    set (u := map (fun q => fst q - step * snd q) (combine v gq)).
    assert (Hu : List.length u = m) by (unfold u; rewrite map_length, combine_length; lia).
    set (c' := map (fun jx => if fit && Nat.eqb (fst jx) (m - 1) then snd jx else soft_thresholding (snd jx / (a2 * step + 1)) (a1 * step / (a2 * step + 1)))
                   (combine (seq 0 (List.length u)) u)).
    assert (Hc' : List.length c' = m) by (unfold c'; rewrite map_length, combine_length, seq_length; lia).
    set (vf := fun j => fst (it init i) j + (INR i - 1) / (INR i + 2) * snd (it init i) j).
    assert (Ev : forall j, (j < m)%nat -> coef v j = vf j).
    { intros j Hj. unfold coef, v, vf. rewrite momentum_nth by assumption. rewrite Ec, Ed by exact Hj. reflexivity. }
    assert (Eg : forall j, (j < m)%nat -> nth j gq 0 = lg vf j).
    { intros j Hj. unfold gq, g_of. rewrite grad_query_nth by exact Hj. unfold pgrad, pw. rewrite Rmult_0_l, Rplus_0_r.
      apply lgrad_ext. exact Ev. }
    assert (Ec' : forall j, (j < m)%nat -> nth j c' 0 = fst (it init (S i)) j).
    { intros j Hj. unfold c'.
      rewrite nth_map_enum by (rewrite Hu; exact Hj). cbn [fst snd].
      assert (Eu : nth j u 0 = vf j - step * lg vf j).
      { unfold u. rewrite (nth_combine_pair (fun q => fst q - step * snd q)) by assumption. cbn [fst snd]. rewrite (Eg j Hj).
        fold (coef v j). rewrite (Ev j Hj). reflexivity. }
      rewrite Eu. cbn [run]. unfold gstep. cbn [fst]. unfold pg, prox, free_last. reflexivity. }
    exists c', (vsub c' c), (if Rlt_dec (lmax (vsub c' c)) tol then true else false).
    split; [reflexivity|]. split; [exact Hc'|]. split; [unfold vsub; rewrite map_length, combine_length; lia|].
    split; [exact Ec'|]. split.
    - intros j Hj. unfold vsub. rewrite (nth_combine_pair (fun p => fst p - snd p)) by assumption. cbn [fst snd].
      rewrite (Ec' j Hj), (Ec j Hj). reflexivity.
    - destruct (Rlt_dec _ tol); [auto|discriminate].
  Qed.
  Lemma fone_iterate init n : forall i c dl, List.length c = m -> List.length dl = m ->
    (forall j, (j < m)%nat -> nth j c 0 = fst (it init i) j) -> (forall j, (j < m)%nat -> nth j dl 0 = snd (it init i) j) ->
    exists N c' dl' d', fone k fit None tol rows par n i (c, dl, false) = (c', dl', d')
      /\ List.length c' = m
      /\ (i <= N <= i + n)%nat /\ (0 < n -> i < N)%nat
      /\ (forall j, (j < m)%nat -> nth j c' 0 = fst (it init N) j)
      /\ (d' = false -> N = (i + n)%nat) /\ (d' = true -> lmax dl' < tol).
  Proof.
    induction n as [|n IH]; intros i c dl Hc Hd Ec Ed.
    - exists i, c, dl, false. cbn [fone]. repeat split; auto; try lia; try discriminate.
    - cbn [fone snd]. destruct (fista_slice_spec init i c dl Hc Hd Ec Ed) as [c' [dl' [d' [E [Hc' [Hd' [Ec' [Ed' Ht]]]]]]]].
      rewrite E. destruct d'.
      + exists (S i), c', dl', true. rewrite fone_done by reflexivity. repeat split; auto; try lia; try discriminate.
      + destruct (IH (S i) c' dl' Hc' Hd' Ec' Ed') as [N [c2 [dl2 [d2 [E2 [Hc2 [HN [HN2 [Ec2 [Hf Ht2]]]]]]]]]].
        exists N, c2, dl2, d2. split; [exact E2|]. split; [exact Hc2|]. split; [lia|]. split; [lia|]. split; [exact Ec2|].
        split; [intros H; rewrite (Hf H); lia|exact Ht2].
  Qed.
End Run.

(** ** the loss *)
Section Obj.
  Variables (k : nat) (fit : bool) (rows : list row) (c ratio : R).
  Notation m := (n_xs k fit).
  Notation n := (INR (List.length rows)).
  Notation obj := (objective m (lloss m (xs k) rows) (ratio / c / n) ((1 - ratio) / c / n) (free_last k fit)).
  Lemma obj_loss w : c <> 0 -> n <> 0 -> List.length w = m -> logistic_elastic_loss k fit c ratio rows (report fit w) = obj (coef w).
  Proof.
    intros Hc Hn Hw. unfold logistic_elastic_loss, objective. apply f_equal2.
    - unfold mean_log_loss. fold (avg (fun r => log_loss (predict k fit (report fit w) r) (resp r)) rows).
      apply avg_ext. intros r _. rewrite predict_report by exact Hw. reflexivity.
    - unfold penal. rewrite fsum_cut.
      2:{ intros i Hi. destruct (Nat.lt_ge_cases i m) as [L|L].
          - unfold mask, free_last. unfold n_xs in *. destruct fit; [|lia]. replace i with k by lia.
            replace (S k - 1)%nat with k by lia. rewrite Nat.eqb_refl. cbn [andb]. lra.
          - unfold coef. rewrite nth_overflow by lia. rewrite Rabs_R0. lra. }
      rewrite (fsum_ext k (fun i => Rabs (slope fit (report fit w) i)) (fun i => Rabs (coef w i)))
        by (intros i Hi; rewrite (slope_report k) by assumption; reflexivity).
      rewrite (fsum_ext k (fun i => slope fit (report fit w) i ^ 2) (fun i => coef w i ^ 2))
        by (intros i Hi; rewrite (slope_report k) by assumption; reflexivity).
      rewrite <- !fsum_scal, <- fsum_plus. unfold Rdiv. rewrite <- fsum_scal_r. apply fsum_ext. intros i Hi.
      replace (mask (free_last k fit) i) with 1; [field; auto|].
      unfold mask, free_last, n_xs. destruct fit; [|reflexivity]. replace (S k - 1)%nat with k by lia.
      destruct (Nat.eqb_spec i k); [lia|reflexivity].
  Qed.
  Definition to_list (v : nat -> R) : list R := map v (seq 0 m).
  Lemma to_list_length v : List.length (to_list v) = m.
  Proof. unfold to_list. rewrite map_length, seq_length. reflexivity. Qed.
  Lemma to_list_coef v i : (i < m)%nat -> coef (to_list v) i = v i.
  Proof. intros Hi. unfold coef, to_list. rewrite nth_map_seq by exact Hi. reflexivity. Qed.
  Lemma obj_ext u v : (forall i, (i < m)%nat -> u i = v i) -> obj u = obj v.
  Proof.
    intros H. unfold objective, penal. rewrite (lloss_ext m (xs k) rows u v H). apply f_equal. apply fsum_ext. intros i Hi.
    rewrite H by exact Hi. reflexivity.
  Qed.
  Lemma fsum_report (F : R -> R -> R) u v : List.length u = m -> List.length v = m ->
    fsum (n_coef k fit) (fun i => F (nth i (report fit u) 0) (nth i (report fit v) 0)) = fsum m (fun i => F (coef u i) (coef v i)).
  Proof.
    unfold n_coef, n_xs, coef. destruct fit; cbn [report]; intros Hu Hv; [|reflexivity].
    rewrite fsum_shift. cbn [nth fsum]. rewrite (last_nth u k Hu), (last_nth v k Hv), Rplus_comm. apply f_equal2; [|reflexivity].
    apply fsum_ext. intros i Hi. rewrite !(removelast_nth _ k) by assumption. reflexivity.
  Qed.
  Lemma bound_above lam : 0 < lam -> design_bound k fit lam rows -> forall u v,
    2 * (3.999999 / lam) * (lloss m (xs k) rows u - lloss m (xs k) rows v - fsum m (fun i => (u i - v i) * lgrad m (xs k) rows v i)) <= dist2 m u v.
  Proof.
    intros Hl HB u v. destruct (lloss_above m (xs k) rows (3.999999 / lam) u v) as [H|H]; [|exact H|].
    - intros e. assert (Q := HB (report fit (to_list e)) (report_length k fit _ (to_list_length e))).
      rewrite (fsum_report (fun a _ => a ^ 2) (to_list e) (to_list e)) in Q by apply to_list_length.
      fold (avg (fun r => predict k fit (report fit (to_list e)) r ^ 2) rows) in Q.
      rewrite (avg_ext (fun r => predict k fit (report fit (to_list e)) r ^ 2) (fun r => score m (xs k) e r ^ 2)) in Q.
      2:{ intros r _. rewrite predict_report by apply to_list_length. apply (f_equal (fun z => z ^ 2)). unfold z_of, score.
          apply fsum_ext. intros i Hi. fold (coef (to_list e) i). rewrite to_list_coef by exact Hi. reflexivity. }
      rewrite (fsum_ext m _ (fun i => e i * e i)) in Q by (intros i Hi; rewrite to_list_coef by exact Hi; ring).
      assert (Hp : 0 <= fsum m (fun i => e i * e i)) by (apply fsum_nonneg; intros; apply (Rle_0_sqr (e i))).
      apply (Rmult_le_compat_l (3.999999 / lam)) in Q; [|left; apply Rmult_lt_0_compat; [lra|apply Rinv_0_lt_compat; exact Hl]].
      replace (3.999999 / lam * (lam * fsum m (fun i => e i * e i))) with (3.999999 * fsum m (fun i => e i * e i)) in Q by (field; lra).
      lra.
    - exfalso. assert (0 < 3.999999 / lam) by (apply Rmult_lt_0_compat; [lra|apply Rinv_0_lt_compat; exact Hl]). lra.
  Qed.
End Obj.

Lemma fista_logistic_rate k fit c ratio tol max_iter lam rows init :
  rows <> [] -> (0 < max_iter)%nat -> 0 < c -> 0 <= ratio <= 1 -> 0 < lam -> design_bound k fit lam rows -> List.length init = n_xs k fit ->
  exists w dl d N,
    fone k fit None tol rows (slice_params (ratio / c) ((1 - ratio) / c) lam (INR (List.length rows))) max_iter 0 (zero_delta init) = (w, dl, d)
    /\ List.length w = n_xs k fit /\ (1 <= N <= max_iter)%nat /\ (d = false -> N = max_iter) /\ (d = true -> lmax dl < tol)
    /\ (forall star, minimizes (n_coef k fit) (logistic_elastic_loss k fit c ratio rows) star ->
        logistic_elastic_loss k fit c ratio rows (report fit w) - logistic_elastic_loss k fit c ratio rows star
        <= 2 * fsum (n_coef k fit) (fun i => (nth i (report fit init) 0 - nth i star 0) ^ 2) / (3.999999 / lam * (INR N + 1) ^ 2)).
Proof.
  intros Hr Hm Hc Hq Hl HB Hi.
  assert (Hn : 0 < INR (List.length rows)) by (apply lt_0_INR; destruct rows; [congruence|cbn; lia]).
  set (s := 3.999999 / lam).
  assert (Hs : 0 < s) by (apply Rmult_lt_0_compat; [lra|apply Rinv_0_lt_compat; exact Hl]).
  destruct (fone_iterate k fit rows tol (ratio / c / INR (List.length rows)) ((1 - ratio) / c / INR (List.length rows)) s (coef init) max_iter 0 init (map (fun _ => 0) init))
    as [N [w [dl [d [E [Hw [HN [HN2 [Ew [Hf Ht]]]]]]]]]].
  - exact Hi.
  - rewrite map_length. exact Hi.
  - reflexivity.
  - intros j Hj. cbn [run snd]. apply nth_zeros.
  - exists w, dl, d, N. split; [exact E|]. split; [exact Hw|]. split; [specialize (HN2 Hm); lia|]. split; [exact Hf|]. split; [exact Ht|].
    intros star [Hstar Hmin]. destruct (report_onto k fit star Hstar) as [cs [Hcs Ecs]].
    assert (Nc : c <> 0) by lra. assert (Nn : INR (List.length rows) <> 0) by lra.
    rewrite <- Ecs. rewrite !obj_loss by assumption.
    destruct N as [|N]; [specialize (HN2 Hm); lia|].
    rewrite (obj_ext k fit rows c ratio (coef w) (xk (lgrad (n_xs k fit) (xs k) rows) (ratio / c / INR (List.length rows)) ((1 - ratio) / c / INR (List.length rows)) s (free_last k fit) (coef init) (S N))) by exact Ew.
    rewrite (fsum_report k fit (fun a b => (a - b) ^ 2) init cs Hi Hcs).
    rewrite (fsum_ext (n_xs k fit) (fun i => (coef init i - coef cs i) ^ 2) (fun i => (coef init i - coef cs i) * (coef init i - coef cs i))) by (intros; ring).
    fold (dist2 (n_xs k fit) (coef init) (coef cs)).
    replace ((INR (S N) + 1) ^ 2) with ((INR (S N) + 1) * (INR (S N) + 1)) by ring.
    apply fista_rate.
    + intros u v H. apply lloss_ext. exact H.
    + apply lloss_below.
    + apply bound_above; assumption.
    + exact Hs.
    + apply Rmult_le_pos; [apply Rmult_le_pos; [lra|left; apply Rinv_0_lt_compat; exact Hc]|left; apply Rinv_0_lt_compat; exact Hn].
    + apply Rmult_le_pos; [apply Rmult_le_pos; [lra|left; apply Rinv_0_lt_compat; exact Hc]|left; apply Rinv_0_lt_compat; exact Hn].
    + intros v. rewrite <- (obj_ext k fit rows c ratio (coef (to_list k fit v)) v) by (intros; apply to_list_coef; assumption).
      rewrite <- !obj_loss by (assumption || apply to_list_length). rewrite Ecs. apply Hmin.
      apply report_length, to_list_length.
Qed.
