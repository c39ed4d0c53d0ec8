(** C50, C60, C61: what .display() shows. *)
From Coq Require Import String List Bool Reals Lra Permutation ZArith.
From Verif Require Import M_Metric L_Hash M_Display S_Display L_Display.
Import ListNotations.
Open Scope list_scope.

(** ** C50: colors.  An interval wholly above zero is good (bad with flip_color), wholly below zero bad (good), and an
    interval with zero in it neutral. *)
Theorem C50_good fmt f flip hide v r lo hi : (lo <= hi)%R ->
  (shown_as good (metric_cell fmt f flip hide (Quad v (Fin r) (Fin lo) (Fin hi))) <->
   (flip = false /\ above lo hi) \/ (flip = true /\ below lo hi)).
Proof.
  intros H. rewrite shown_iff by (reflexivity || (cbn; auto)). rewrite (above_iff lo hi H), (below_iff lo hi H), <- gt0_fin, <- lt0_fin.
  cbn [q_lower q_upper]. unfold class_of. destruct (gt0 (Fin lo)) eqn:A, (lt0 (Fin hi)) eqn:B, flip; cbn;
    split; intros X; try discriminate X; try tauto; destruct X as [[? ?]|[? ?]]; congruence.
Qed.
Theorem C50_bad fmt f flip hide v r lo hi : (lo <= hi)%R ->
  (shown_as bad (metric_cell fmt f flip hide (Quad v (Fin r) (Fin lo) (Fin hi))) <->
   (flip = false /\ below lo hi) \/ (flip = true /\ above lo hi)).
Proof.
  intros H. rewrite shown_iff by (reflexivity || (cbn; auto)). rewrite (above_iff lo hi H), (below_iff lo hi H), <- gt0_fin, <- lt0_fin.
  cbn [q_lower q_upper]. unfold class_of.
  assert (N : gt0 (Fin lo) = true -> lt0 (Fin hi) = true -> False) by (rewrite gt0_fin, lt0_fin; lra).
  destruct (gt0 (Fin lo)) eqn:A, (lt0 (Fin hi)) eqn:B, flip; cbn; try (exfalso; apply N; reflexivity);
    split; intros X; try discriminate X; try tauto; destruct X as [[? ?]|[? ?]]; congruence.
Qed.
Theorem C50_neutral fmt f flip hide v r lo hi : (lo <= hi)%R ->
  (shown_as neutral (metric_cell fmt f flip hide (Quad v (Fin r) (Fin lo) (Fin hi))) <-> (lo <= 0 <= hi)%R).
Proof.
  intros H. rewrite shown_iff by (reflexivity || (cbn; auto)). cbn [q_lower q_upper]. unfold class_of, gt0, lt0.
  destruct (Rlt_dec 0 lo), (Rlt_dec hi 0), flip; cbn; split; intros X; try discriminate X; try lra; try reflexivity; exfalso; lra.
Qed.
(** Missing numbers: no change, no color; a missing bound never makes a change significant by itself. *)
Theorem C50_missing fmt f flip hide v lo hi :
  shown_as neutral (metric_cell fmt f flip hide (Quad v NaN lo hi))
  /\ (forall r, shown_as neutral (metric_cell fmt f flip hide (Quad v (Fin r) NaN NaN)))
  /\ (forall r h, (0 <= h)%R -> shown_as neutral (metric_cell fmt f flip hide (Quad v (Fin r) NaN (Fin h))))
  /\ (forall r l, (l <= 0)%R -> shown_as neutral (metric_cell fmt f flip hide (Quad v (Fin r) (Fin l) NaN))).
Proof.
  split; [destruct (cell_plain fmt f flip hide (Quad v NaN lo hi) eq_refl) as [b ->]; apply prefix_div|].
  split; [|split].
  - intros r. apply shown_iff; [reflexivity|cbn; auto|]. destruct flip; reflexivity.
  - intros r h Hh. apply shown_iff; [reflexivity|cbn; auto|]. unfold class_of. cbn. destruct (Rlt_dec h 0); [lra|]. destruct flip; reflexivity.
  - intros r l Hl. apply shown_iff; [reflexivity|cbn; auto|]. unfold class_of. cbn. destruct (Rlt_dec 0 l); [lra|]. destruct flip; reflexivity.
Qed.

(** ** C60: every result is shown once, in the row of its slice and experiment and the column of its metric *)
Theorem C60_each_result_once fmt le has_exp ctrl show_control show_value f flip_color metric_order hide rows r :
  complete has_exp ctrl rows ->
  NoDup (map (fun r => (ident has_exp r, l_metric r)) rows) ->
  In r rows -> seen has_exp ctrl show_control r ->
  let out := formatted fmt le has_exp ctrl show_control show_value f flip_color metric_order hide rows in
  exists key cells q, In (key, cells) out /\ about has_exp key r
    /\ (forall key' cells', In (key', cells') out -> about has_exp key' r -> (key', cells') = (key, cells))
    /\ numbers has_exp ctrl show_control show_value r q
    /\ (forall html, In (l_metric r, html) cells <->
          wanted metric_order (l_metric r) /\
          html = metric_cell fmt f (existsb (String.eqb (l_metric r)) flip_color) hide q).
Proof. intros Hc Hu Hr Hs. exact (table_row fmt le has_exp ctrl show_control show_value rows Hc Hu f flip_color metric_order hide r Hr Hs). Qed.
(** and nothing else: other cells are for results that do not exist, without numbers *)
Theorem C60_nothing_else fmt le has_exp ctrl show_control show_value f flip_color metric_order hide rows key cells :
  complete has_exp ctrl rows ->
  NoDup (map (fun r => (ident has_exp r, l_metric r)) rows) ->
  In (key, cells) (formatted fmt le has_exp ctrl show_control show_value f flip_color metric_order hide rows) ->
  (exists r, In r rows /\ seen has_exp ctrl show_control r /\ about has_exp key r) /\
  forall m html, In (m, html) cells -> wanted metric_order m /\
    ((exists r q, In r rows /\ seen has_exp ctrl show_control r /\ about has_exp key r /\ l_metric r = m
       /\ numbers has_exp ctrl show_control show_value r q
       /\ html = metric_cell fmt f (existsb (String.eqb m) flip_color) hide q)
     \/ ((forall r, In r rows -> seen has_exp ctrl show_control r -> about has_exp key r -> l_metric r <> m)
         /\ html = metric_cell fmt f (existsb (String.eqb m) flip_color) hide (Quad NaN NaN NaN NaN))).
Proof. intros Hc Hu H. exact (table_only fmt le has_exp ctrl show_control show_value rows Hc Hu f flip_color metric_order hide key cells H). Qed.

(** Two results for the same slice, experiment and metric: their mean is shown. *)
Theorem C60_repeated_result_refuted : let q x := Quad (Fin x) (Fin x) (Fin x) (Fin x) in
  forall fmt le f flip hide,
  formatted fmt le false CtrlNone true false f flip [] hide [LRow [CStr "a"] CNull "x" (q 1%R); LRow [CStr "a"] CNull "x" (q 3%R)]
  = [([CStr "a"], [("x", metric_cell fmt f (existsb (String.eqb "x") flip) hide (q 2%R))])].
Proof.
  intros q fmt le f flip hide. assert (key_eqb [CStr "a"] [CStr "a"] = true) as E by now apply key_eqb_eq.
  unfold formatted, wide, visible, rendered, mean_quad. cbn -[metric_cell key_eqb Rdiv INR]. rewrite E. cbn -[metric_cell key_eqb Rdiv INR]. rewrite !E.
  cbn -[metric_cell key_eqb Rdiv INR]. assert ((1 + (3 + 0)) / INR 2 = 2)%R as -> by (cbn; lra). reflexivity.
Qed.
(** A result whose slice has a missing value, or whose experiment is not in the dict of controls, is not shown at all. *)
Theorem C60_missing_slice_refuted :
  exists rows r, In r rows /\ NoDup (map (fun r => (ident false r, l_metric r)) rows) /\ seen false CtrlNone true r /\
  forall fmt le f flip order hide, formatted fmt le false CtrlNone true false f flip order hide rows = [].
Proof.
  exists [LRow [CNull] CNull "x" (Quad (Fin 1) (Fin 1) (Fin 1) (Fin 1))]. eexists. split; [left; reflexivity|].
  split; [repeat constructor; intros []|]. split; [left; reflexivity|]. reflexivity.
Qed.
Theorem C60_unlisted_experiment_refuted :
  exists ctrl rows r, In r rows /\ NoDup (map (fun r => (ident true r, l_metric r)) rows) /\ l_exp r <> CNull /\ ~ In CNull (l_dims r)
  /\ seen true ctrl true r /\
  forall fmt le f flip order hide key cells,
    In (key, cells) (formatted fmt le true ctrl true false f flip order hide rows) -> ~ about true key r.
Proof.
  pose (q := Quad (Fin 1) (Fin 1) (Fin 1) (Fin 1)).
  exists (CtrlMany [(CStr "ctrl", [CStr "exp 1"])]), [LRow [] (CStr "ctrl") "x" q; LRow [] (CStr "exp 1") "x" q; LRow [] (CStr "exp 2") "x" q].
  exists (LRow [] (CStr "exp 2") "x" q). split; [cbn; auto|].
  split; [repeat constructor; cbn; intros X; repeat (destruct X as [X|X]; [discriminate X|]); exact X|].
  split; [discriminate|]. split; [intros []|]. split; [left; reflexivity|].
  intros fmt le f flip order hide key cells H [_ A]. specialize (A eq_refl). cbn [l_exp] in A.
  unfold formatted in H. apply in_map_iff in H. destruct H as ([k qs] & E & H). injection E as Ek _. cbn [fst] in Ek. subst k.
  unfold wide in H. apply in_map_iff in H. destruct H as (k & E & H). injection E as Ek _. subst k.
  apply (Permutation_in _ (sort_perm le _)) in H. apply (distinct_in key_eqb key_eqb_eq) in H. cbn in H.
  destruct H as [<-|[<-|[]]]; discriminate A.
Qed.

(** ** C61: control values filled in from the experiments (auto_decide_control_vals) *)
Lemma rmax_ge l x : In x l -> (x <= rmax l)%R.
Proof.
  destruct l as [|y l]; [intros []|]. cbn [rmax]. intros H.
  assert (G : forall l a, (a <= fold_left Rmax l a)%R /\ forall z, In z l -> (z <= fold_left Rmax l a)%R).
  { induction l0 as [|b l0 IH]; intros a; cbn; [split; [lra|intros z []]|]. destruct (IH (Rmax a b)) as [G1 G2].
    assert (A1 := Rmax_l a b). assert (A2 := Rmax_r a b). split; [lra|]. intros z [<-|Hz]; [lra|apply G2, Hz]. }
  destruct (G l y) as [G1 G2]. destruct H as [<-|H]; [exact G1|apply G2, H].
Qed.
Lemma rmin_le l x : In x l -> (rmin l <= x)%R.
Proof.
  destruct l as [|y l]; [intros []|]. cbn [rmin]. intros H.
  assert (G : forall l a, (fold_left Rmin l a <= a)%R /\ forall z, In z l -> (fold_left Rmin l a <= z)%R).
  { induction l0 as [|b l0 IH]; intros a; cbn; [split; [lra|intros z []]|]. destruct (IH (Rmin a b)) as [G1 G2].
    assert (A1 := Rmin_l a b). assert (A2 := Rmin_r a b). split; [lra|]. intros z [<-|Hz]; [lra|apply G2, Hz]. }
  destruct (G l y) as [G1 G2]. destruct H as [<-|H]; [exact G1|apply G2, H].
Qed.
Lemma rmax_in l : l <> [] -> In (rmax l) l.
Proof.
  destruct l as [|y l]; [congruence|]. intros _. cbn [rmax].
  assert (G : forall l a, fold_left Rmax l a = a \/ In (fold_left Rmax l a) l).
  { induction l0 as [|b l0 IH]; intros a; cbn; [auto|]. destruct (IH (Rmax a b)) as [E|H]; [|auto]. rewrite E.
    unfold Rmax. destruct (Rle_dec a b); auto. }
  destruct (G l y) as [->|H]; [left; reflexivity|right; exact H].
Qed.
Lemma rmin_in l : l <> [] -> In (rmin l) l.
Proof.
  destruct l as [|y l]; [congruence|]. intros _. cbn [rmin].
  assert (G : forall l a, fold_left Rmin l a = a \/ In (fold_left Rmin l a) l).
  { induction l0 as [|b l0 IH]; intros a; cbn; [auto|]. destruct (IH (Rmin a b)) as [E|H]; [|auto]. rewrite E.
    unfold Rmin. destruct (Rle_dec a b); auto. }
  destruct (G l y) as [->|H]; [left; reflexivity|right; exact H].
Qed.
Lemma thresh_1 : thresh = 1%R.
Proof. unfold thresh. rewrite pow1. lra. Qed.
(** A value is filled in when the experiments' control values are less than 1 apart (1**-5 is 1, not 0.00001), and it is the
    smallest one; when they agree it is that value.  The warning comes when two of them are more than 1 apart. *)
Theorem C61_filled_partial vals v : vals <> [] ->
  (filled_control vals = Some v <-> In v vals /\ (forall x, In x vals -> (v <= x < v + 1)%R)).
Proof.
  intros Hn. unfold filled_control. rewrite thresh_1. assert (A := rmax_in vals Hn). assert (B := rmin_in vals Hn).
  destruct (Rlt_dec (rmax vals - rmin vals) 1) as [L|L].
  - split.
    + intros E. injection E as <-. split; [exact B|]. intros x Hx. assert (X := rmax_ge vals x Hx). assert (Y := rmin_le vals x Hx). lra.
    + intros [H1 H2]. f_equal. assert (X := rmin_le vals v H1). assert (Y := H2 _ B). lra.
  - split; [discriminate|]. intros [H1 H2]. assert (X := H2 _ A). assert (Y := rmin_le vals v H1). assert (Z := H2 _ B). lra.
Qed.
Theorem C61_agreement vals v : vals <> [] -> (forall x, In x vals -> x = v) -> filled_control vals = Some v /\ warns vals = false.
Proof.
  intros Hn Hv. split.
  - apply C61_filled_partial; [exact Hn|]. split; [rewrite <- (Hv _ (rmax_in vals Hn)); apply rmax_in, Hn|]. intros x Hx. rewrite (Hv x Hx). lra.
  - unfold warns. rewrite thresh_1, (Hv _ (rmax_in vals Hn)), (Hv _ (rmin_in vals Hn)). destruct (Rlt_dec 1 (v - v)); [lra|reflexivity].
Qed.
Theorem C61_warning vals : vals <> [] ->
  (warns vals = true <-> exists x y, In x vals /\ In y vals /\ (x + 1 < y)%R).
Proof.
  intros Hn. unfold warns. rewrite thresh_1. destruct (Rlt_dec 1 (rmax vals - rmin vals)) as [L|L]; split; try discriminate; try reflexivity.
  - intros _. exists (rmin vals), (rmax vals). split; [apply rmin_in, Hn|]. split; [apply rmax_in, Hn|]. lra.
  - intros (x & y & Hx & Hy & Hl). exfalso. apply L. assert (A := rmax_ge vals y Hy). assert (B := rmin_le vals x Hx). lra.
Qed.
(** Two click rates of 10 % and 90 % count as the same control value; values exactly 1 apart are skipped without a warning. *)
Theorem C61_inconsistent_accepted_refuted :
  filled_control [0.9; 0.1]%R = Some 0.1%R /\ warns [0.9; 0.1]%R = false /\ filled_control [0; 1]%R = None /\ warns [0; 1]%R = false.
Proof.
  split; [|split; [|split]].
  - apply C61_filled_partial; [discriminate|]. split; [right; left; reflexivity|]. intros x [<-|[<-|[]]]; lra.
  - destruct (warns [0.9; 0.1]%R) eqn:E; [|reflexivity]. apply C61_warning in E; [|discriminate].
    destruct E as (x & y & [<-|[<-|[]]] & [<-|[<-|[]]] & L); lra.
  - destruct (filled_control [0; 1]%R) as [v|] eqn:E; [|reflexivity]. apply C61_filled_partial in E; [|discriminate].
    destruct E as [_ E]. assert (A := E 0%R (or_introl eq_refl)). assert (B := E 1%R (or_intror (or_introl eq_refl))). lra.
  - destruct (warns [0; 1]%R) eqn:E; [|reflexivity]. apply C61_warning in E; [|discriminate].
    destruct E as (x & y & [<-|[<-|[]]] & [<-|[<-|[]]] & L); lra.
Qed.

Print Assumptions C50_good.
Print Assumptions C60_each_result_once.
Print Assumptions C60_nothing_else.
Print Assumptions C61_filled_partial.

(** ** Concrete cases *)
Definition fmt0 (_ : string) (_ : R) : string := "#".
Definition ex_rows : list lrow :=
  [ LRow [CStr "US"] (CNum 0) "ctr" (Quad (Fin 1) (Fin 0) (Fin 0) (Fin 0));
    LRow [CStr "US"] (CNum 1) "ctr" (Quad (Fin 1.2) (Fin 0.2) (Fin 0.1) (Fin 0.3));
    LRow [CStr "UK"] (CNum 1) "ctr" (Quad (Fin 0.9) (Fin (-0.1)) (Fin (-0.2)) (Fin 0.05)) ].
Example C60_hypotheses : complete true (CtrlOne (CNum 0)) ex_rows /\ NoDup (map (fun r => (ident true r, l_metric r)) ex_rows)
  /\ seen true (CtrlOne (CNum 0)) false (nth 1 ex_rows (nth 0 ex_rows (LRow [] CNull "" (Quad NaN NaN NaN NaN)))).
Proof.
  split; [split|split].
  - exists 1%nat. intros r H. cbn in H. repeat (destruct H as [<-|H]; [reflexivity|]). destruct H.
  - intros r H. split.
    + cbn in H. repeat (destruct H as [<-|H]; [intros [X|[]]; discriminate X|]). destruct H.
    + intros _. cbn in H. repeat (destruct H as [<-|H]; [split; [discriminate|right; discriminate]|]). destruct H.
  - repeat constructor; cbn; intros X; repeat (destruct X as [X|X]; [discriminate X|]); exact X.
  - right. intros [_ X]. discriminate X.
Qed.
Example C60_shape : map fst (formatted fmt0 (fun _ _ => true) true (CtrlOne (CNum 0)) false false (Formats "absolute" "percent") [] [] true ex_rows)
  = [[CStr "US"; CNum 0; CNum 0; CNum 1]; [CStr "UK"; CNum 0; CNum 0; CNum 1]]%Z.
Proof. reflexivity. Qed.
