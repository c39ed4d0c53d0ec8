(** Rank correlations in terms of sums over rows and over pairs of rows. *)
From Coq Require Import Reals List Bool String Permutation Lia Lra.
From Verif Require L_SqlOps.
From Verif Require Import M_Num M_Frame M_Leaf S_Leaf L_OpsA L_Leaf L_Leaf2 L_Leaf3 L_RowOrder L_LeastSq M_RankCorr S_RankCorr.
Import ListNotations.
Open Scope string_scope.
Open Scope R_scope.

(** ** The order of numbers *)
Lemma xlt_not_tied x y : xlt x y = true -> tied x y = false. Proof. unfold tied. intros ->. reflexivity. Qed.
Lemma xlt_irrefl x : xlt x x = false. Proof. destruct x; try reflexivity. cbn. destruct (Rlt_dec r r); [lra|reflexivity]. Qed.
Lemma xlt_asym x y : xlt x y = true -> xlt y x = false.
Proof. destruct x, y; cbn; try discriminate; try reflexivity. destruct (Rlt_dec r r0); [|discriminate]. destruct (Rlt_dec r0 r); [lra|reflexivity]. Qed.
(** not less is transitive, without missing values *)
Lemma xlt_neg_trans x y z : y <> NaN -> xlt x z = true -> xlt x y = true \/ xlt y z = true.
Proof.
  destruct x as [a| | |], y as [b| | |], z as [c| | |]; cbn; intros H; try discriminate; try congruence; auto.
  destruct (Rlt_dec a c); [|discriminate]. intros _. destruct (Rlt_dec a b); [now left|]. destruct (Rlt_dec b c); [now right|lra].
Qed.
Lemma tied_sym x y : tied x y = tied y x. Proof. unfold tied. apply andb_comm. Qed.

(** ** Counting *)
Lemma count_ext {A} (p q : A -> bool) l : (forall r, In r l -> p r = q r) -> count p l = count q l.
Proof. intros H. unfold count. do 2 f_equal. now apply filter_ext_in. Qed.
Lemma count_map {A B} (f : A -> B) p l : count p (List.map f l) = count (fun r => p (f r)) l.
Proof. unfold count. f_equal. induction l as [|r l IH]; [reflexivity|]. cbn. destruct (p (f r)); cbn; congruence. Qed.
Lemma count_sum {A} (p : A -> bool) l : count p l = sum_of (fun r => if p r then 1 else 0) l.
Proof.
  unfold count, sum_of. induction l as [|r l IH]; [reflexivity|]. cbn [filter List.map Rsum]. rewrite <- IH. destruct (p r); cbn [List.length]; [rewrite S_INR|]; lra.
Qed.
Lemma count_perm' {A} (p : A -> bool) l l' : Permutation l l' -> count p l = count p l'.
Proof. intros H. rewrite !count_sum. unfold sum_of. now apply Rsum_perm, Permutation_map. Qed.
Lemma count_ge {A} (p q : A -> bool) l : (forall r, In r l -> p r = true -> q r = true) -> count p l <= count q l.
Proof.
  intros H. rewrite !count_sum. unfold sum_of. induction l as [|r l IH]; [cbn; lra|]. cbn [List.map Rsum]. assert (Rsum (List.map (fun r => if p r then 1 else 0) l) <= Rsum (List.map (fun r => if q r then 1 else 0) l)) by (apply IH; intros; apply H; auto; now right).
  pose proof (H r (or_introl eq_refl)) as HX. destruct (p r), (q r); try lra; discriminate (HX eq_refl).
Qed.
Lemma count_or {A} (p q : A -> bool) l : (forall r, In r l -> p r && q r = false) -> count (fun r => p r || q r) l = count p l + count q l.
Proof.
  intros H. rewrite !count_sum. rewrite <- sum_of_plus. apply sum_of_ext. intros r Hr. specialize (H r Hr). destruct (p r), (q r); cbn in *; try lra; discriminate.
Qed.
Lemma count_pos {A} (p : A -> bool) l r : In r l -> p r = true -> 1 <= count p l.
Proof. intros H Hp. unfold count. assert (In r (filter p l)) as Hi by (apply filter_In; auto). destruct (filter p l); [destruct Hi|]. cbn [List.length]. rewrite S_INR. pose proof (pos_INR (List.length l0)). lra. Qed.
Lemma count_nonneg {A} (p : A -> bool) l : 0 <= count p l. Proof. apply pos_INR. Qed.

(** ** Missing values *)
Lemma both_In a b rows r : In r (both_present a b rows) <-> In r rows /\ cellx a r <> NaN /\ cellx b r <> NaN.
Proof.
  unfold both_present. rewrite filter_In, andb_true_iff, !negb_true_iff. assert (forall x, is_nan x = false <-> x <> NaN) as H by (intros []; cbn; split; congruence). now rewrite !H.
Qed.
Lemma both_swap a b rows : both_present a b rows = both_present b a rows.
Proof. unfold both_present. apply filter_ext. intros r. apply andb_comm. Qed.
Lemma both_same a a' b rows : same_missing a a' rows -> both_present a b rows = both_present a' b rows.
Proof.
  intros H. unfold both_present. apply filter_ext_in. intros r Hr. destruct (H r Hr) as [H1 H2]. f_equal. f_equal. destruct (cellx a r), (cellx a' r); cbn; try reflexivity; exfalso; first [discriminate (H1 eq_refl) | discriminate (H2 eq_refl)].
Qed.
Lemma both_perm a b rows rows' : Permutation rows rows' -> Permutation (both_present a b rows) (both_present a b rows').
Proof. apply L_SqlOps.filter_perm. Qed.

(** ** Spearman *)
Definition rk (c : colx) (rows : table) (r : drow) : R := rank (cellx c r) (col_of c rows).
Lemma rk_is c rows r : rk c rows r = count (fun q => xlt (cellx c q) (cellx c r)) rows + (count (fun q => tied (cellx c r) (cellx c q)) rows + 1) / 2.
Proof. unfold rk, rank, col_of. now rewrite !count_map. Qed.
Lemma cross_map {A B} (f : A -> B) x y l : cross x y (List.map f l) = cross (fun r => x (f r)) (fun r => y (f r)) l.
Proof.
  assert (forall g, sum_of g (List.map f l) = sum_of (fun r => g (f r)) l) as H by (intros g; unfold sum_of; now rewrite map_map).
  unfold cross, wcross, wmean_of. now rewrite !H.
Qed.
Lemma spearman_value a b rows : let v := both_present a b rows in
  spearman a b rows = match v with [] => NaN | _ => xdiv (Fin (cross (rk a v) (rk b v) v)) (Fin (sqrt (cross (rk a v) (rk a v) v) * sqrt (cross (rk b v) (rk b v) v))) end.
Proof.
  cbn zeta. unfold spearman. set (v := both_present a b rows). destruct v as [|r0 l] eqn:E; [apply xcorr_nil|]. rewrite <- E. assert (v <> []) as Hn by (rewrite E; discriminate). clear E.
  assert (forall c, complete (Col c) (ranked a b v)) as HC.
  { intros c. unfold complete, ranked. apply Forall_forall. intros r Hr. apply in_map_iff in Hr as (q & <- & _). cbn. eauto. }
  rewrite xcorr_complete; auto; [|unfold ranked; destruct v; [congruence|discriminate]].
  unfold ranked. rewrite !cross_map. reflexivity.
Qed.
Lemma cross_ext {A} (x x' y y' : A -> R) l : (forall r, In r l -> x r = x' r) -> (forall r, In r l -> y r = y' r) -> cross x y l = cross x' y' l.
Proof. intros H1 H2. unfold cross. apply wcross_ext; auto. Qed.
Lemma cross_sym {A} (x y : A -> R) l : cross x y l = cross y x l. Proof. apply wcross_sym. Qed.
Lemma spearman_ext a b a' b' rows : let v := both_present a b rows in both_present a' b' rows = v -> (forall r, In r v -> rk a v r = rk a' v r) -> (forall r, In r v -> rk b v r = rk b' v r) ->
  spearman a b rows = spearman a' b' rows.
Proof.
  cbn zeta. intros E H1 H2. rewrite !spearman_value. rewrite E. set (v := both_present a b rows) in *. destruct v as [|r l] eqn:Ev; [reflexivity|]. rewrite <- Ev in *.
  rewrite (cross_ext _ (rk a' v) _ (rk b' v) v) by assumption. rewrite (cross_ext (rk a v) (rk a' v) _ (rk a' v) v) by assumption. now rewrite (cross_ext (rk b v) (rk b' v) _ (rk b' v) v) by assumption.
Qed.
Lemma rk_alike a a' v : ordered_alike a a' v -> forall r, In r v -> rk a v r = rk a' v r.
Proof.
  intros H r Hr. rewrite !rk_is. unfold tied. f_equal; [|f_equal; f_equal]; apply count_ext; intros q Hq; rewrite ?(H q r Hq Hr), ?(H r q Hr Hq); reflexivity.
Qed.
(** every row is before, after or tied *)
Lemma count_three c v r : count (fun q => xlt (cellx c q) (cellx c r)) v + count (fun q => tied (cellx c r) (cellx c q)) v + count (fun q => xlt (cellx c r) (cellx c q)) v = size v.
Proof.
  rewrite !count_sum, <- !sum_of_plus, <- sum_of_1. apply sum_of_ext. intros q _. unfold tied. pose proof (xlt_asym (cellx c q) (cellx c r)). destruct (xlt (cellx c q) (cellx c r)), (xlt (cellx c r) (cellx c q)); cbn; try lra; discriminate (H eq_refl).
Qed.
Lemma rk_opposite a a' v : ordered_opposite a a' v -> forall r, In r v -> rk a' v r = -1 * rk a v r + (size v + 1).
Proof.
  intros H r Hr. rewrite !rk_is. pose proof (count_three a v r) as H3.
  assert (count (fun q => xlt (cellx a' q) (cellx a' r)) v = count (fun q => xlt (cellx a r) (cellx a q)) v) as -> by (apply count_ext; intros q Hq; symmetry; now apply H).
  assert (count (fun q => tied (cellx a' r) (cellx a' q)) v = count (fun q => tied (cellx a r) (cellx a q)) v) as ->.
  { apply count_ext; intros q Hq. unfold tied. rewrite (H r q Hr Hq), (H q r Hq Hr). apply andb_comm. }
  lra.
Qed.
Lemma rk_less a v r q : (forall s, In s v -> cellx a s <> NaN) -> In r v -> In q v -> xlt (cellx a r) (cellx a q) = true -> rk a v r < rk a v q.
Proof.
  intros HN Hr Hq H. rewrite !rk_is.
  assert (count (fun s => xlt (cellx a s) (cellx a r)) v + count (fun s => tied (cellx a r) (cellx a s)) v <= count (fun s => xlt (cellx a s) (cellx a q)) v) as H1.
  { rewrite <- count_or. 2:{ intros s _. unfold tied. destruct (xlt (cellx a s) (cellx a r)); [|reflexivity]. cbn. apply andb_false_r. }
    apply count_ge. intros s Hs Hx. destruct (xlt_neg_trans (cellx a r) (cellx a s) (cellx a q) (HN s Hs) H) as [H2|H2]; [|exact H2].
    apply orb_prop in Hx as [Hx|Hx]; [rewrite (xlt_asym _ _ Hx) in H2; discriminate|]. unfold tied in Hx. rewrite H2 in Hx. discriminate. }
  pose proof (count_nonneg (fun s => tied (cellx a r) (cellx a s)) v).
  assert (1 <= count (fun s => tied (cellx a q) (cellx a s)) v) by (apply (count_pos _ _ q Hq); unfold tied; now rewrite xlt_irrefl). lra.
Qed.
Lemma cross_varies {A} (x : A -> R) l r q : In r l -> In q l -> x r < x q -> 0 < cross x x l.
Proof.
  intros Hr Hq H. destruct (Rle_lt_or_eq_dec _ _ (cross_nonneg x l)) as [Hp|E]; [exact Hp|]. exfalso.
  assert (forall s, In s l -> x s - wmean_of (fun _ => 1) x l = 0) as HZ.
  { apply (sum_sq_zero (fun s => x s - wmean_of (fun _ => 1) x l)). unfold cross, wcross in E. rewrite (sum_of_ext _ (fun s => 1 * ((x s - wmean_of (fun _ => 1) x l) * (x s - wmean_of (fun _ => 1) x l)))) by (intros; ring). lra. }
  pose proof (HZ r Hr). pose proof (HZ q Hq). lra.
Qed.
Lemma xdiv_neg C X Y : C ^ 2 <= X * Y -> 0 <= X -> 0 <= Y -> xdiv (Fin (- C)) (Fin (sqrt X * sqrt Y)) = xopp (xdiv (Fin C) (Fin (sqrt X * sqrt Y))).
Proof.
  intros HC HX HY. cbn. destruct (Req_EM_T (sqrt X * sqrt Y) 0) as [E|N].
  - assert (X * Y = 0) as E0 by (rewrite <- (sqrt_sqrt X), <- (sqrt_sqrt Y) by assumption; replace (sqrt X * sqrt X * (sqrt Y * sqrt Y)) with ((sqrt X * sqrt Y) * (sqrt X * sqrt Y)) by ring; rewrite E; ring).
    rewrite (sq_zero C) by lra. rewrite Ropp_0. unfold inf_times. destruct (Req_EM_T 0 0); [reflexivity|lra].
  - cbn. f_equal. unfold Rdiv. ring.
Qed.

(** ** Kendall *)
Definition sg (x y : num) : R := (if xlt x y then 1 else 0) - (if xlt y x then 1 else 0).
Definition sgp (c : colx) (p : drow * drow) : R := sg (cellx c (fst p)) (cellx c (snd p)).
Definition con (a b : colx) (rows : table) : R := sum_of (fun p => sgp a p * sgp b p) (pairs rows).
Lemma sgp_sq c p : sgp c p * sgp c p = 1 - (if tied (cellx c (fst p)) (cellx c (snd p)) then 1 else 0).
Proof. unfold sgp, sg, tied. pose proof (xlt_asym (cellx c (fst p)) (cellx c (snd p))). destruct (xlt (cellx c (fst p)) (cellx c (snd p))), (xlt (cellx c (snd p)) (cellx c (fst p))); cbn; try lra; discriminate (H eq_refl). Qed.
Lemma untied c v : INR (List.length (pairs v)) - count (fun p => tied (cellx c (fst p)) (cellx c (snd p))) (pairs v) = con c c v.
Proof.
  unfold con. rewrite count_sum. fold (@size (drow * drow) (pairs v)). rewrite <- sum_of_1. rewrite (sum_of_ext (fun p => sgp c p * sgp c p) (fun p => 1 + -1 * (if tied (cellx c (fst p)) (cellx c (snd p)) then 1 else 0))).
  - rewrite sum_of_plus, sum_of_scal. lra.
  - intros p _. rewrite sgp_sq. lra.
Qed.
Lemma con_nonneg c v : 0 <= con c c v. Proof. apply sum_of_nonneg. intros p _. apply Rle_0_sqr. Qed.
Lemma con_cauchy a b v : con a b v ^ 2 <= con a a v * con b b v.
Proof.
  pose proof (cauchy (fun _ => 1) (sgp a) (sgp b) (pairs v)) as H. unfold con.
  rewrite !(sum_of_ext (fun p => 1 * _) (fun p => _)) in H by (intros; apply Rmult_1_l). apply H. intros; lra.
Qed.
Lemma con_sym a b v : con a b v = con b a v. Proof. apply sum_of_ext. intros; ring. Qed.
Lemma kendall_value a b rows : let v := both_present a b rows in
  kendall a b rows = xdiv (Fin (con a b v)) (Fin (sqrt (con a a v) * sqrt (con b b v))).
Proof.
  cbn zeta. unfold kendall. set (v := both_present a b rows). cbn [fst snd].
  pose proof (untied a v) as Ea. pose proof (untied b v) as Eb.
  assert (forall c, con c c v = 0 -> sqrt (con c c v) = 0) as S0 by (intros c ->; apply sqrt_0).
  assert (forall C, C ^ 2 <= con a a v * con b b v -> con a a v = 0 \/ con b b v = 0 -> xdiv (Fin C) (Fin (sqrt (con a a v) * sqrt (con b b v))) = NaN) as HN.
  { intros C HC H0. assert (C = 0) as -> by (apply sq_zero; destruct H0 as [E|E]; rewrite E in HC; lra). assert (sqrt (con a a v) * sqrt (con b b v) = 0) as -> by (destruct H0 as [E|E]; rewrite (S0 _ E); ring). apply xdiv_0. }
  set (tot := INR (List.length (pairs v))) in *. set (xt := count (fun p => tied (cellx a (fst p)) (cellx a (snd p))) (pairs v)) in *. set (yt := count (fun p => tied (cellx b (fst p)) (cellx b (snd p))) (pairs v)) in *.
  destruct (Req_EM_T xt tot) as [E|N1]; [cbn [orb]; symmetry; apply HN; [apply con_cauchy|left; lra]|].
  destruct (Req_EM_T yt tot) as [E|N2]; [cbn [orb]; symmetry; apply HN; [apply con_cauchy|right; lra]|]. cbn [orb].
  assert (0 < sqrt (con a a v)) as P1 by (apply sqrt_lt_R0; pose proof (con_nonneg a v); lra). assert (0 < sqrt (con b b v)) as P2 by (apply sqrt_lt_R0; pose proof (con_nonneg b v); lra).
  match goal with |- xdiv (xdiv (Fin ?k) _) _ = _ => assert (k = con a b v) as -> end.
  { unfold tot, xt, yt, con. fold (@size (drow * drow) (pairs v)). rewrite <- sum_of_1, !count_sum.
    match goal with |- ?s1 - ?s2 - ?s3 + ?s4 - 2 * ?s5 = _ => replace (s1 - s2 - s3 + s4 - 2 * s5) with (s1 + (-1) * s2 + (-1) * s3 + s4 + (-2) * s5) by ring end.
    rewrite <- !sum_of_scal, <- !sum_of_plus. apply sum_of_ext. intros [p q] _. cbn [fst snd]. unfold sgp, sg, tied. cbn [fst snd].
    pose proof (xlt_asym (cellx a p) (cellx a q)) as A1. pose proof (xlt_asym (cellx b p) (cellx b q)) as A2.
    destruct (xlt (cellx a p) (cellx a q)), (xlt (cellx a q) (cellx a p)); try discriminate (A1 eq_refl);
      destruct (xlt (cellx b p) (cellx b q)), (xlt (cellx b q) (cellx b p)); try discriminate (A2 eq_refl); cbn; lra. }
  rewrite Ea, Eb.
  cbn. destruct (Req_EM_T (sqrt (con a a v)) 0); [lra|]. cbn. destruct (Req_EM_T (sqrt (con b b v)) 0); [lra|].
  destruct (Req_EM_T (sqrt (con a a v) * sqrt (con b b v)) 0) as [E|_]; [apply Rmult_integral in E; lra|]. apply f_equal. field. split; lra.
Qed.
Lemma pairs_In {A} (l : list A) p : In p (pairs l) -> In (fst p) l /\ In (snd p) l.
Proof.
  induction l as [|r l IH]; [intros []|]. cbn [pairs]. rewrite in_app_iff. intros [H|H].
  - apply in_map_iff in H as (q & <- & Hq). cbn. auto.
  - apply IH in H as [H1 H2]. split; now right.
Qed.
Lemma con_alike a a' b b' v : ordered_alike a a' v -> ordered_alike b b' v -> con a b v = con a' b' v.
Proof.
  intros H1 H2. apply sum_of_ext. intros p Hp. apply pairs_In in Hp as [F S]. unfold sgp, sg. rewrite (H1 _ _ F S), (H1 _ _ S F), (H2 _ _ F S), (H2 _ _ S F). reflexivity.
Qed.
Lemma con_opposite a a' b v : ordered_opposite a a' v -> con a' b v = - con a b v /\ con a' a' v = con a a v.
Proof.
  intros H1. assert (forall p, In p (pairs v) -> sgp a' p = -1 * sgp a p) as H.
  { intros p Hp. apply pairs_In in Hp as [F S]. unfold sgp, sg. rewrite (H1 _ _ F S), (H1 _ _ S F). lra. }
  split; unfold con.
  - replace (- sum_of (fun p => sgp a p * sgp b p) (pairs v)) with (-1 * sum_of (fun p => sgp a p * sgp b p) (pairs v)) by ring. rewrite <- sum_of_scal. apply sum_of_ext. intros p Hp. rewrite (H p Hp). ring.
  - apply sum_of_ext. intros p Hp. rewrite (H p Hp). ring.
Qed.
Lemma pairs_sum_perm {A} (g : A * A -> R) : (forall r q, g (r, q) = g (q, r)) -> forall l l', Permutation l l' -> sum_of g (pairs l) = sum_of g (pairs l').
Proof.
  intros Hg. assert (forall l1 l2, sum_of g (l1 ++ l2) = sum_of g l1 + sum_of g l2) as HA.
  { intros l1 l2. unfold sum_of. rewrite map_app. induction (List.map g l1); cbn [app Rsum]; [lra|]. rewrite IHl. lra. }
  assert (forall r l, sum_of g (List.map (fun q => (r, q)) l) = Rsum (List.map (fun q => g (r, q)) l)) as HM by (intros; unfold sum_of; now rewrite map_map).
  induction 1 as [|r l l' H IH|r q l|l1 l2 l3 H1 IH1 H2 IH2]; cbn [pairs].
  - reflexivity.
  - rewrite !HA, IH, !HM. f_equal. apply Rsum_perm. now apply Permutation_map.
  - cbn [List.map]. rewrite !HA. cbn [app]. unfold sum_of at 1. unfold sum_of at 3. cbn [List.map Rsum]. rewrite !map_map. unfold sum_of. rewrite !map_map. rewrite (Hg q r). lra.
  - congruence.
Qed.
Lemma con_perm a b v v' : Permutation v v' -> con a b v = con a b v'.
Proof. apply pairs_sum_perm. intros r q. unfold sgp, sg. cbn [fst snd]. ring. Qed.
Lemma con_varies c v r q : In r v -> In q v -> xlt (cellx c r) (cellx c q) = true -> 0 < con c c v.
Proof.
  intros Hr Hq H. destruct (Rle_lt_or_eq_dec _ _ (con_nonneg c v)) as [Hp|E]; [exact Hp|]. exfalso.
  assert (forall p, In p (pairs v) -> sgp c p = 0) as HZ. { apply sum_sq_zero. unfold con in E. rewrite (sum_of_ext _ (fun p => sgp c p * sgp c p)) by (intros; ring). lra. }
  assert (exists p, In p (pairs v) /\ (p = (r, q) \/ p = (q, r))) as (p & Hp & Ep).
  { assert (r <> q) as Hne by (intros ->; rewrite xlt_irrefl in H; discriminate). clear - Hr Hq Hne. induction v as [|s l IH]; [destruct Hr|]. cbn [pairs].
    destruct Hr as [->|Hr], Hq as [->|Hq]; [congruence| | |].
    - exists (r, q). split; [apply in_or_app; left; apply in_map_iff; eauto|auto].
    - exists (q, r). split; [apply in_or_app; left; apply in_map_iff; eauto|auto].
    - destruct (IH Hr Hq) as (p & Hp & E). exists p. split; [apply in_or_app; now right|exact E]. }
  pose proof (HZ p Hp) as Z. pose proof (xlt_asym _ _ H) as H'. destruct Ep as [->| ->]; unfold sgp, sg in Z; cbn [fst snd] in Z; rewrite H, H' in Z; lra.
Qed.

(** ** Slices *)
Section Renamed.
  Variables (f : drow -> drow) (a b a' b' : colx).
  Hypothesis Ha : forall r, cellx a' (f r) = cellx a r.
  Hypothesis Hb : forall r, cellx b' (f r) = cellx b r.
  Hypothesis Hl : forall r, lab (f r) = lab r.
  Lemma both_renamed rows : both_present a' b' (List.map f rows) = List.map f (both_present a b rows).
  Proof. unfold both_present. induction rows as [|r l IH]; [reflexivity|]. cbn [List.map filter]. rewrite Ha, Hb, IH. now destruct (negb _ && negb _). Qed.
  Lemma col_renamed c c' rows : (forall r, cellx c' (f r) = cellx c r) -> col_of c' (List.map f rows) = col_of c rows.
  Proof. intros H. unfold col_of. rewrite map_map. now apply map_ext. Qed.
  Lemma xcorr_renamed rows : xcorr a' b' (List.map f rows) = xcorr a b rows.
  Proof.
    unfold xcorr. cbn zeta. rewrite both_renamed. rewrite (col_renamed a a') by exact Ha. rewrite (col_renamed b b') by exact Hb. rewrite !map_map.
    apply f_equal2; [|apply f_equal2; apply f_equal]; apply f_equal; apply map_ext; intros r; rewrite ?Ha, ?Hb; reflexivity.
  Qed.
  Lemma con_renamed c c' d d' v : (forall r, cellx c' (f r) = cellx c r) -> (forall r, cellx d' (f r) = cellx d r) -> con c' d' (List.map f v) = con c d v.
  Proof.
    intros Hc Hd. unfold con. assert (pairs (List.map f v) = List.map (fun p => (f (fst p), f (snd p))) (pairs v)) as ->.
    { induction v as [|r l IH]; [reflexivity|]. cbn [pairs List.map]. rewrite IH, map_app, !map_map. reflexivity. }
    unfold sum_of. rewrite map_map. f_equal. apply map_ext. intros p. unfold sgp. cbn [fst snd]. now rewrite !Hc, !Hd.
  Qed.
  Lemma correlation_renamed m rows : correlation m a' b' None (List.map f rows) = correlation m a b None rows.
  Proof.
    destruct m; cbn [correlation]; f_equal.
    - exact (xcorr_renamed rows).
    - unfold spearman. rewrite both_renamed. f_equal. unfold ranked. rewrite map_map. apply map_ext. intros r. rewrite Hl, Ha, Hb, (col_renamed a a') by exact Ha. now rewrite (col_renamed b b') by exact Hb.
    - rewrite !kendall_value, both_renamed. now rewrite (con_renamed a a' b b'), (con_renamed a a' a a'), (con_renamed b b' b b') by assumption.
  Qed.
End Renamed.

Lemma join_self a b (other : indexed) : NoDup (List.map fst other) -> forall this, incl this other ->
  joined a b this other = List.map (fun r => Row (lab r) (fun c => if String.eqb c "this" then cellx a r else cellx b r)) (List.map snd this).
Proof.
  intros HN. induction this as [|r l IH]; intros Hi; [reflexivity|]. unfold joined in *. cbn [flat_map List.map]. rewrite IH by (intros x Hx; apply Hi; now right).
  assert (filter (fun q : nat * drow => Nat.eqb (fst q) (fst r)) other = [r]) as ->; [|reflexivity].
  assert (In r other) as Hr by (apply Hi; now left). clear - HN Hr. induction other as [|q o IH]; [destruct Hr|]. cbn [List.map] in HN. inversion HN as [|? ? H1 H2]; subst. cbn [filter].
  destruct Hr as [->|Hr].
  - rewrite PeanoNat.Nat.eqb_refl. f_equal. assert (forall p, In p o -> Nat.eqb (fst p) (fst r) = false) as HF.
    { intros p Hp. apply PeanoNat.Nat.eqb_neq. intros E. apply H1. rewrite <- E. now apply in_map. }
    clear - HF. induction o as [|p o IH]; [reflexivity|]. cbn. rewrite HF by now left. apply IH. intros; apply HF. now right.
  - destruct (PeanoNat.Nat.eqb_spec (fst q) (fst r)) as [E|_]; [exfalso; apply H1; rewrite E; now apply in_map|auto].
Qed.
Lemma reset_labels df : NoDup (List.map fst (reset_index df)) /\ List.map snd (reset_index df) = List.map snd df.
Proof.
  unfold reset_index. assert (forall {A B} (l : list A) (l' : list B), List.length l = List.length l' -> List.map fst (combine l l') = l /\ List.map snd (combine l l') = l') as H.
  { induction l as [|x l IH]; intros [|y l'] E; try discriminate; [auto|]. injection E as E. destruct (IH l' E) as [H1 H2]. cbn. now rewrite H1, H2. }
  destruct (H nat drow (seq 0 (List.length df)) (List.map snd df)) as [-> ->]; [now rewrite seq_length, map_length|]. split; [apply seq_NoDup|reflexivity].
Qed.
Lemma filter_snd {A B} (p : B -> bool) (l : list (A * B)) : List.map snd (filter (fun r => p (snd r)) l) = filter p (List.map snd l).
Proof. induction l as [|r l IH]; [reflexivity|]. cbn. destruct (p (snd r)); cbn; congruence. Qed.
