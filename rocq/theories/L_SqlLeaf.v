From Coq Require Import Reals List Bool String ZArith Lia Lra.
From Verif Require Import M_Num M_Frame M_Leaf S_Leaf L_Frame L_Leaf L_Leaf2 L_Leaf3 M_SqlGlobal M_SqlLeaf S_SqlLeaf.
Import ListNotations.
Open Scope list_scope.
Open Scope R_scope.

(** ** conditions *)
Definition istrue (o : option bool) : bool := match o with Some true => true | _ => false end.
Lemma and3_true a b : istrue (and3 a b) = istrue a && istrue b.
Proof. destruct a as [[]|], b as [[]|]; reflexivity. Qed.
Lemma or3_true a b : istrue (or3 a b) = istrue a || istrue b.
Proof. destruct a as [[]|], b as [[]|]; reflexivity. Qed.
Lemma operand_fetch o r : poperand o (pandas_row r) = fetch (soperand o r).
Proof. destruct o; reflexivity. Qed.
Lemma positive_same p r : positive p -> same_verdict p r.
Proof.
  unfold same_verdict. change (positive p -> ptest p (pandas_row r) = istrue (stest p r)).
  induction p as [a op b|c v|c v|c vs|p IHp q IHq|p IHp q IHq|p IHp]; cbn [positive ptest stest]; try tauto.
  - intros H. rewrite !operand_fetch. destruct (soperand a r), (soperand b r); cbn; try (destruct op; congruence).
    now destruct (compare_with op r0 r1).
  - intros _. cbn. now destruct (slab r c) as [s|]; cbn; [destruct (String.eqb s v)|].
  - intros _. cbn. now destruct (slab r c) as [s|]; cbn; [destruct (mem s vs)|].
  - intros [H1 H2]. rewrite and3_true, IHp, IHq; auto.
  - intros [H1 H2]. rewrite or3_true, IHp, IHq; auto.
Qed.
Lemma known_value p r : known p r -> stest p r = Some (ptest p (pandas_row r)).
Proof.
  induction p as [a op b|c v|c v|c vs|p IHp q IHq|p IHp q IHq|p IHp]; cbn [known ptest stest].
  - intros [H1 H2]. rewrite !operand_fetch. destruct (soperand a r), (soperand b r); try congruence. reflexivity.
  - intros H. cbn. destruct (slab r c); [reflexivity|congruence].
  - intros H. cbn. destruct (slab r c); [reflexivity|congruence].
  - intros H. cbn. destruct (slab r c); [reflexivity|congruence].
  - intros [H1 H2]. rewrite IHp, IHq by auto. now destruct (ptest p _), (ptest q _).
  - intros [H1 H2]. rewrite IHp, IHq by auto. now destruct (ptest p _), (ptest q _).
  - intros H. now rewrite IHp by auto.
Qed.
Lemma known_same p r : known p r -> same_verdict p r.
Proof. intros H. unfold same_verdict. rewrite (known_value p r H). now destruct (ptest p (pandas_row r)). Qed.

(** ** inputs of aggregates *)
Lemma nonnull_filter {A B} (f : A -> option B) (p : A -> bool) l :
  nonnull (List.map (fun x => if p x then f x else None) l) = nonnull (List.map f (filter p l)).
Proof. induction l as [|x l IH]; [reflexivity|]. cbn [List.map nonnull filter]. destruct (p x); cbn [List.map nonnull]; [destruct (f x); now rewrite IH|exact IH]. Qed.
Lemma nonnull_ext {A B} (f g : A -> option B) l : (forall x, f x = g x) -> nonnull (List.map f l) = nonnull (List.map g l).
Proof. intros H. f_equal. now apply map_ext. Qed.

Section P.
  Variable parse : string -> cond.
  Notation inputs := (inputs parse). Notation pairs := (pairs parse). Notation spass := (spass parse).
  Notation sagg_value := (sagg_value parse). Notation sexpr_value := (sexpr_value parse).

  Lemma spass_forallb fs r : spass fs r = forallb (fun f => istrue (stest (parse f) r)) fs.
  Proof.
    unfold M_SqlLeaf.spass. change (istrue (sfilters parse fs r) = forallb (fun f => istrue (stest (parse f) r)) fs).
    unfold sfilters. induction fs as [|f fs IH]; [reflexivity|]. cbn [fold_right forallb]. now rewrite and3_true, IH.
  Qed.
  Lemma spass_nil r : spass [] r = true. Proof. reflexivity. Qed.
  Lemma spass_app a b r : spass (a ++ b) r = spass a r && spass b r.
  Proof. rewrite !spass_forallb. apply forallb_app. Qed.

  Lemma inputs_if fs c rows : inputs (AIf fs c) rows = inputs (AIf [] c) (filter (spass fs) rows).
  Proof. unfold M_SqlLeaf.inputs. cbn [sarg]. rewrite nonnull_filter. now apply nonnull_ext. Qed.
  Lemma inputs_prod fs a b rows : inputs (AProd (AIf fs a) (AIf fs b)) rows = inputs (AProd (AIf [] a) (AIf [] b)) (filter (spass fs) rows).
  Proof.
    unfold M_SqlLeaf.inputs. rewrite <- nonnull_filter. apply nonnull_ext. intros r. cbn [sarg]. rewrite !spass_nil.
    now destruct (spass fs r).
  Qed.
  Lemma pairs_if fs a b rows : pairs (AIf fs a) (AIf fs b) rows = pairs (AIf [] a) (AIf [] b) (filter (spass fs) rows).
  Proof.
    unfold M_SqlLeaf.pairs. rewrite <- nonnull_filter. apply nonnull_ext. intros r. cbn [sarg]. rewrite !spass_nil.
    now destruct (spass fs r).
  Qed.
  Ltac cases_leaf m := destruct m as [c|c|a b [|]|c [w|]|c d [w|]|c d [w|]|c d|a b d [w|] [f|]|a b [w|]|agg].
  (** the column of a leaf with filters = the column without, on the rows that pass *)
  Lemma columns_if l fs x rows : sql_columns l fs = Some x ->
    exists x0, sql_columns l [] = Some x0 /\ sexpr_value x rows = sexpr_value x0 (filter (spass fs) rows) /\
               (fits parse x rows -> fits parse x0 (filter (spass fs) rows)).
  Proof.
    assert (forall c, (exists r, In r rows /\ sarg parse (AIf fs c) r <> None) ->
              exists r, In r (filter (spass fs) rows) /\ sarg parse (AIf [] c) r <> None) as HA.
    { intros c [r [H1 H2]]. exists r. cbn [sarg] in *. rewrite spass_nil. rewrite filter_In. destruct (spass fs r); [auto|congruence]. }
    assert (forall a b, (exists r, In r rows /\ sarg parse (AProd (AIf fs a) (AIf fs b)) r <> None) ->
              exists r, In r (filter (spass fs) rows) /\ sarg parse (AProd (AIf [] a) (AIf [] b)) r <> None) as HP.
    { intros a b [r [H1 H2]]. exists r. cbn [sarg] in *. rewrite spass_nil. rewrite filter_In. destruct (spass fs r); [auto|cbn in H2; congruence]. }
    destruct l as [m|v|v|v]; [cases_leaf m|..]; cbn [sql_columns]; intros E; try discriminate;
    try (destruct (Z.eqb d 1) eqn:E1); try (destruct (Z.eqb d 0) eqn:E2); try discriminate; injection E as <-;
    (eexists; split; [reflexivity|]); cbn [M_SqlLeaf.sexpr_value M_SqlLeaf.sagg_value fits];
    rewrite ?(inputs_prod fs), ?(pairs_if fs), ?(inputs_if fs); (split; [reflexivity|]); auto.
    all: intros (H1 & H2 & H3); auto.
  Qed.
  Lemma tree_if fs rows t : Forall (fun l => sql_columns (Lf l) fs <> None) (leaves t) ->
    sexpr_value (sql_tree fs t) rows = sexpr_value (sql_tree [] t) (filter (spass fs) rows) /\
    (fits parse (sql_tree fs t) rows -> fits parse (sql_tree [] t) (filter (spass fs) rows)).
  Proof.
    induction t as [l|r|a IHa b IHb|a IHa b IHb|a IHa b IHb|a IHa b IHb|a IHa|a IHa]; cbn [leaves sql_tree]; intros H.
    - inversion H as [|? ? Hl _]; subst. destruct (sql_columns (Lf l) fs) as [x|] eqn:E; [|congruence].
      destruct (columns_if _ _ _ rows E) as (x0 & E0 & H1 & H2). now rewrite E0.
    - now split.
    - apply Forall_app in H as [Ha Hb]. destruct (IHa Ha) as [A1 A2], (IHb Hb) as [B1 B2]. cbn [M_SqlLeaf.sexpr_value fits]. rewrite A1, B1. tauto.
    - apply Forall_app in H as [Ha Hb]. destruct (IHa Ha) as [A1 A2], (IHb Hb) as [B1 B2]. cbn [M_SqlLeaf.sexpr_value fits]. rewrite A1, B1. tauto.
    - apply Forall_app in H as [Ha Hb]. destruct (IHa Ha) as [A1 A2], (IHb Hb) as [B1 B2]. cbn [M_SqlLeaf.sexpr_value fits]. rewrite A1, B1. tauto.
    - apply Forall_app in H as [Ha Hb]. destruct (IHa Ha) as [A1 A2], (IHb Hb) as [B1 B2]. cbn [M_SqlLeaf.sexpr_value fits]. rewrite A1, B1. tauto.
    - destruct (IHa H) as [A1 A2]. cbn [M_SqlLeaf.sexpr_value fits]. rewrite A1. tauto.
    - destruct (IHa H) as [A1 A2]. cbn [M_SqlLeaf.sexpr_value fits]. rewrite A1. tauto.
  Qed.
  Lemma full_columns m fs : (forall agg, m <> LOther agg) -> Forall (fun l => sql_columns (Lf l) fs <> None) (leaves (full (ELeaf m))).
  Proof.
    intros Hm. apply Forall_forall. intros l Hl. apply only_sum_count in Hl as [[c ->]|[[c ->]|(agg & -> & H)]]; try discriminate.
    destruct H as [H|[]]. exfalso. exact (Hm agg H).
  Qed.
  Lemma leaf_if l fs rows : supported l ->
    sexpr_value (sql_leaf l fs) rows = sexpr_value (sql_leaf l []) (filter (spass fs) rows) /\
    (fits parse (sql_leaf l fs) rows -> fits parse (sql_leaf l []) (filter (spass fs) rows)).
  Proof.
    intros Hs. unfold sql_leaf. destruct (sql_columns l fs) as [x|] eqn:E.
    - destruct (columns_if _ _ _ rows E) as (x0 & E0 & H1 & H2). now rewrite E0.
    - destruct (sql_columns l []) as [x0|] eqn:E0.
      + exfalso. destruct l as [m|v|v|v]; [cases_leaf m|..]; cbn [sql_columns] in E, E0; try discriminate.
        destruct (Z.eqb d 1); [discriminate|]. destruct (Z.eqb d 0); discriminate.
      + destruct l as [m|v|v|v]; [|now split..]. apply tree_if, full_columns. intros agg ->. exact Hs.
  Qed.

  (** ** unfiltered leaves: SQL value = pandas value *)
  Lemma cell_fetch c r : cellx c (pandas_row r) = fetch (scell c r).
  Proof.
    induction c as [v|a IHa b IHb|a IHa]; cbn [cellx scell]; [reflexivity|rewrite IHa, IHb|rewrite IHa];
    [destruct (scell a r), (scell b r)|destruct (scell a r)]; reflexivity.
  Qed.
  Lemma col_fetch c rows : col_of c (pandas_table rows) = List.map (fun r => fetch (scell c r)) rows.
  Proof. unfold col_of, pandas_table. rewrite map_map. apply map_ext. intros r. apply cell_fetch. Qed.
  Lemma inputs_nil c rows : inputs (AIf [] c) rows = nonnull (List.map (scell c) rows).
  Proof. apply nonnull_ext. intros r. reflexivity. Qed.
  Lemma inputs_prod_nil a b rows : inputs (AProd (AIf [] a) (AIf [] b)) rows = nonnull (List.map (scell (Times a b)) rows).
  Proof. apply nonnull_ext. intros r. reflexivity. Qed.
  Lemma xsum_fetch {A} (f : A -> option R) l : xsum (List.map (fun r => fetch (f r)) l) = Fin (Rsum (nonnull (List.map f l))).
  Proof.
    unfold xsum. induction l as [|x l IH]; [reflexivity|]. cbn [List.map fold_right nonnull]. destruct (f x); cbn [fetch is_nan]; rewrite IH; reflexivity.
  Qed.
  Lemma count_fetch {A} (f : A -> option R) l : count_present (List.map (fun r => fetch (f r)) l) = List.length (nonnull (List.map f l)).
  Proof.
    unfold count_present. induction l as [|x l IH]; [reflexivity|]. cbn [List.map filter nonnull].
    destruct (f x); cbn [fetch is_nan negb List.length]; now rewrite IH.
  Qed.
  Lemma xmean_fetch {A} (f : A -> option R) l :
    xmean (List.map (fun r => fetch (f r)) l) = fetch (unless_fewer 1 (nonnull (List.map f l)) (avg (nonnull (List.map f l)))).
  Proof.
    unfold xmean, unless_fewer, avg. rewrite xsum_fetch, count_fetch. destruct (nonnull (List.map f l)) as [|x l']; cbn [Nat.ltb Nat.leb List.length].
    - cbn [fetch Rsum INR]. apply xdiv_0.
    - rewrite xdiv_fin; [reflexivity|]. apply not_0_INR. discriminate.
  Qed.
  Lemma dev_fetch {A} (f : A -> option R) m l :
    xsum (List.map (fun x => xsq (xsub x (Fin m))) (List.map (fun r => fetch (f r)) l)) = Fin (Rsum (List.map (fun x => (x - m) * (x - m)) (nonnull (List.map f l)))).
  Proof.
    unfold xsum. induction l as [|x l IH]; [reflexivity|]. cbn [List.map fold_right nonnull]. rewrite IH.
    destruct (f x); reflexivity.
  Qed.
  Lemma xvar_fetch {A} (f : A -> option R) (ddof : nat) l : (ddof = 0 \/ ddof = 1)%nat ->
    xvar (List.map (fun r => fetch (f r)) l) (Z.of_nat ddof) =
    fetch (unless_fewer (S ddof) (nonnull (List.map f l)) (dev (nonnull (List.map f l)) / (INR (List.length (nonnull (List.map f l))) - INR ddof))).
  Proof.
    intros Hd. unfold xvar, unless_fewer. rewrite count_fetch, xmean_fetch. set (v := nonnull (List.map f l)).
    destruct (Nat.ltb_spec (List.length v) (S ddof)) as [H|H].
    - destruct (Z.leb_spec (Z.of_nat (List.length v)) (Z.of_nat ddof)) as [_|H']; [reflexivity|lia].
    - destruct (Z.leb_spec (Z.of_nat (List.length v)) (Z.of_nat ddof)) as [H'|_]; [lia|].
      unfold unless_fewer. destruct (Nat.ltb_spec (List.length v) 1) as [H'|_]; [lia|]. cbn [fetch].
      rewrite dev_fetch. fold v. fold (dev v). rewrite <- INR_IZR_INZ. rewrite xdiv_fin; [reflexivity|].
      assert (INR ddof < INR (List.length v)) by (apply lt_INR; lia). lra.
  Qed.
  Lemma dev_nonneg l : 0 <= dev l.
  Proof.
    unfold dev. generalize (avg l) as m. intros m. induction l as [|x l IH]; cbn [List.map Rsum]; [lra|].
    pose proof (Rle_0_sqr (x - m)) as H. unfold Rsqr in H. lra.
  Qed.
  Lemma sqrt_fetch {A} n (l : list A) (v : R) : ((n <= List.length l)%nat -> 0 <= v) -> xsqrt (fetch (unless_fewer n l v)) = fetch (unless_fewer n l (sqrt v)).
  Proof.
    unfold unless_fewer. destruct (Nat.ltb_spec (List.length l) n) as [H|H]; [reflexivity|]. intros Hv. cbn [fetch]. now rewrite xsqrt_fin by auto.
  Qed.
  Lemma xmax_fetch l : fold_right xmax2 NaN (List.map fetch l) = fetch (fold1 Rmax (nonnull l)).
  Proof.
    induction l as [|[x|] l IH]; [reflexivity|..]; cbn [List.map fold_right nonnull fold1]; rewrite IH; [|now destruct (fold1 Rmax (nonnull l))].
    destruct (fold1 Rmax (nonnull l)) as [y|]; [|reflexivity]. unfold xmax2. cbn. unfold Rmax.
    destruct (Rlt_dec x y), (Rle_dec x y); try reflexivity; try lra. f_equal. lra.
  Qed.
  Lemma xmin_fetch l : fold_right xmin2 NaN (List.map fetch l) = fetch (fold1 Rmin (nonnull l)).
  Proof.
    induction l as [|[x|] l IH]; [reflexivity|..]; cbn [List.map fold_right nonnull fold1]; rewrite IH; [|now destruct (fold1 Rmin (nonnull l))].
    destruct (fold1 Rmin (nonnull l)) as [y|]; [|reflexivity]. unfold xmin2. cbn. unfold Rmin.
    destruct (Rlt_dec y x), (Rle_dec x y); try reflexivity; try lra. 
  Qed.
  Lemma Reqb_eq a b : Reqb a b = true <-> a = b.
  Proof. unfold Reqb. destruct (Req_EM_T a b); split; congruence. Qed.
  Lemma existsb_Reqb a l : existsb (Reqb a) l = true <-> In a l.
  Proof.
    rewrite existsb_exists. split; [intros (x & H & E); apply Reqb_eq in E; now subst|]. intros H. exists a. split; auto. now apply Reqb_eq.
  Qed.
  Lemma distinct_In l : forall seen x, In x (distinct_from seen (List.map fetch l)) <-> In x (nonnull l) /\ ~ In x seen.
  Proof.
    induction l as [|[a|] l IH]; intros seen x; cbn [List.map fetch distinct_from nonnull]; [cbn; tauto|..|apply IH].
    destruct (existsb (Reqb a) seen) eqn:E.
    - apply existsb_Reqb in E. rewrite IH. cbn. split; [tauto|]. intros [[<-|H] H']; tauto.
    - assert (~ In a seen) as N by (intros H; apply existsb_Reqb in H; congruence). cbn. rewrite IH. cbn.
      destruct (Req_EM_T a x) as [<-|D]; [|tauto]. tauto.
  Qed.
  Lemma distinct_NoDup l : forall seen, NoDup (distinct_from seen (List.map fetch l)).
  Proof.
    induction l as [|[a|] l IH]; intros seen; cbn [List.map fetch distinct_from]; [constructor|..|apply IH].
    destruct (existsb (Reqb a) seen); [apply IH|]. constructor; [|apply IH]. rewrite distinct_In. cbn. tauto.
  Qed.
  Lemma distinct_fetch l : List.length (distinct_from [] (List.map fetch l)) = List.length (nodup Req_EM_T (nonnull l)).
  Proof.
    apply Nat.le_antisymm; apply NoDup_incl_length; try apply distinct_NoDup; try apply NoDup_nodup.
    - intros x Hx. apply nodup_In. now apply distinct_In in Hx.
    - intros x Hx. apply nodup_In in Hx. apply distinct_In. cbn. tauto.
  Qed.

  (** pairs *)
  Lemma no_infinity_pandas c rows : no_infinity c (pandas_table rows).
  Proof.
    unfold no_infinity, pandas_table. apply Forall_forall. intros r Hr. apply in_map_iff in Hr as (s & <- & _). rewrite cell_fetch.
    destruct (scell c s); split; discriminate.
  Qed.
  Lemma pairs_both a b rows : pairs (AIf [] a) (AIf [] b) rows = List.map (fun r => (at_ a r, at_ b r)) (both_present a b (pandas_table rows)).
  Proof.
    unfold M_SqlLeaf.pairs, both_present, pandas_table, at_. induction rows as [|r rows IH]; [reflexivity|].
    cbn [List.map filter nonnull sarg]. rewrite !spass_nil, !cell_fetch.
    destruct (scell a r) as [x|] eqn:Ea, (scell b r) as [y|] eqn:Eb; cbn [lift2 nonnull fetch is_nan negb andb List.map]; rewrite ?cell_fetch, ?Ea, ?Eb; cbn [fetch num_of]; try (f_equal; exact IH); exact IH.
  Qed.
  Lemma avg_mean {A} (x : A -> R) rs : avg (List.map x rs) = mean_of x rs.
  Proof. unfold avg, mean_of, sum_of, size. now rewrite map_length. Qed.
  Lemma codev_cross {A} (x y : A -> R) rs : codev (List.map (fun r => (x r, y r)) rs) = cross x y rs.
  Proof. rewrite <- cross_means. unfold codev. rewrite !map_map. cbn [fst snd]. rewrite !avg_mean. reflexivity. Qed.
  Lemma dev_cross {A} (x : A -> R) rs : dev (List.map x rs) = cross x x rs.
  Proof. rewrite <- cross_means. unfold dev. rewrite !map_map, avg_mean. reflexivity. Qed.
  Lemma corr_fetch a b rows : fetch (sagg_value (CORR (AIf [] a) (AIf [] b)) rows) = xcorr a b (pandas_table rows).
  Proof.
    cbn [M_SqlLeaf.sagg_value]. rewrite pairs_both, codev_cross, !map_map. cbn [fst snd]. rewrite (dev_cross (at_ a)), (dev_cross (at_ b)). rewrite <- xcorr_both.
    pose proof (both_complete_l a b _ (no_infinity_pandas a rows)) as Ca. pose proof (both_complete_r a b _ (no_infinity_pandas b rows)) as Cb.
    revert Ca Cb. generalize (both_present a b (pandas_table rows)) as rs. intros rs Ca Cb. destruct rs as [|r rs].
    { rewrite xcorr_nil. unfold Reqb at 1. destruct (Req_EM_T _ _) as [_|N]; [reflexivity|]. exfalso. apply N. unfold cross, wcross, sum_of. reflexivity. }
    rewrite xcorr_complete by (auto; discriminate). set (l := r :: rs).
    pose proof (cross_cauchy (at_ a) (at_ b) l) as HC. pose proof (cross_nonneg (at_ a) l) as HX. pose proof (cross_nonneg (at_ b) l) as HY.
    revert HC HX HY. generalize (cross (at_ a) (at_ b) l) (cross (at_ a) (at_ a) l) (cross (at_ b) (at_ b) l). intros C X Y HC HX HY.
    unfold Reqb. destruct (Req_EM_T X 0) as [->|NX]; [|destruct (Req_EM_T Y 0) as [->|NY]]; cbn [orb fetch].
    - rewrite sqrt_0, Rmult_0_l. replace C with 0 by (symmetry; apply sq_zero; lra). symmetry. apply xdiv_0.
    - rewrite sqrt_0, Rmult_0_r. replace C with 0 by (symmetry; apply sq_zero; lra). symmetry. apply xdiv_0.
    - assert (0 < sqrt X) by (apply sqrt_lt_R0; lra). assert (0 < sqrt Y) by (apply sqrt_lt_R0; lra). rewrite xdiv_fin; [reflexivity|].
      intros E. apply Rmult_integral in E. lra.
  Qed.
  Lemma cov_fetch a b (ddof : nat) rows : (ddof = 0 \/ ddof = 1)%nat -> (forall r, In r rows -> (scell a r = None <-> scell b r = None)) ->
    fetch (let l := pairs (AIf [] a) (AIf [] b) rows in unless_fewer (S ddof) l (codev l / (INR (List.length l) - INR ddof))) =
    expanded_value (LCov a b (Z.of_nat ddof) None None) (pandas_table rows).
  Proof.
    intros Hd Hm. rewrite <- cov_same_missing.
    2:{ unfold same_missing, pandas_table. apply Forall_forall. intros r Hr. apply in_map_iff in Hr as (s & <- & Hs). rewrite !cell_fetch.
        specialize (Hm s Hs). destruct (scell a s), (scell b s); cbn; split; intros; try discriminate; try reflexivity; exfalso; intuition congruence. }
    cbn zeta. rewrite pairs_both, codev_cross.
    pose proof (both_complete_l a b _ (no_infinity_pandas a rows)) as Ca. pose proof (both_complete_r a b _ (no_infinity_pandas b rows)) as Cb.
    revert Ca Cb. generalize (both_present a b (pandas_table rows)) as rs. intros rs Ca Cb. unfold unless_fewer. rewrite map_length.
    destruct (Nat.ltb_spec (List.length rs) (S ddof)) as [L|L].
    - destruct rs as [|r rs]; [now rewrite V_expanded, V_cov_nil|]. destruct Hd as [->| ->]; [cbn in L; lia|]. destruct rs as [|]; [|cbn in L; lia].
      rewrite V_expanded. erewrite V_leaf by reflexivity. unfold cov_equivalent. cbn [Z.eqb Z.of_nat Pos.of_succ_nat].
      rewrite V_div, cov_num, cross_one, V_sq, V_sqrt, V_sub, V_div, !V_num, V_count, count_complete by (auto; discriminate).
      cbn [List.length INR]. rewrite xdiv_fin by lra. rewrite xsub_fin, xsq_sqrt by lra.
      unfold size. cbn [List.length INR]. replace (0 / 1) with 0 by lra. replace (1 - 1 / 1) with 0 by lra. symmetry. apply xdiv_0.
    - assert (rs <> []) as Hn by (intros ->; cbn in L; lia).
      assert (INR ddof < INR (List.length rs)) as Hs by (apply lt_INR; lia).
      rewrite cov_value; auto; unfold size; rewrite <- INR_IZR_INZ; auto.
  Qed.

  (** arithmetic *)
  Lemma add_fetch a b : fetch (lift2 Rplus a b) = xadd (fetch a) (fetch b). Proof. destruct a, b; reflexivity. Qed.
  Lemma sub_fetch a b : fetch (lift2 Rminus a b) = xsub (fetch a) (fetch b). Proof. destruct a, b; reflexivity. Qed.
  Lemma mul_fetch a b : fetch (lift2 Rmult a b) = xmul (fetch a) (fetch b). Proof. destruct a, b; reflexivity. Qed.
  Lemma sq_fetch a : fetch (option_map (fun x => x * x) a) = xsq (fetch a). Proof. destruct a; reflexivity. Qed.
  Lemma xsqrt_fetch a : fetch (match a with Some x => if Rltb x 0 then None else Some (sqrt x) | None => None end) = xsqrt (fetch a).
  Proof.
    destruct a as [x|]; [|reflexivity]. cbn. unfold Rltb. destruct (Rlt_dec x 0), (Rle_dec 0 x); try reflexivity; lra.
  Qed.
  Lemma div_fetch a b : (b = Some 0 -> a = None \/ a = Some 0) ->
    fetch (match b with Some y => if Reqb y 0 then None else option_map (fun x => x / y) a | None => None end) = xdiv (fetch a) (fetch b).
  Proof.
    intros H. destruct b as [y|]; [|destruct a; reflexivity]. destruct a as [x|].
    - cbn [fetch xdiv]. unfold Reqb. destruct (Req_EM_T y 0) as [->|N]; [|reflexivity]. destruct (H eq_refl) as [E|E]; [discriminate|].
      injection E as ->. unfold inf_times. destruct (Req_EM_T 0 0); [reflexivity|congruence].
    - cbn. now destruct (Reqb y 0).
  Qed.
  Lemma sum_fetch c rows : (exists r, In r rows /\ scell c r <> None) ->
    fetch (unless_fewer 1 (inputs (AIf [] c) rows) (Rsum (inputs (AIf [] c) rows))) = xsum (col_of c (pandas_table rows)).
  Proof.
    intros (r & Hr & Hn). rewrite inputs_nil, col_fetch, xsum_fetch. unfold unless_fewer.
    assert (nonnull (List.map (scell c) rows) <> []) as Hne.
    { induction rows as [|s rows IH]; [destruct Hr|]. cbn [List.map nonnull]. destruct (scell c s) eqn:E; [discriminate|].
      destruct Hr as [->|Hr]; [congruence|auto]. }
    destruct (nonnull (List.map (scell c) rows)); [congruence|reflexivity].
  Qed.
  Lemma tree_fetch rows t : Forall (fun l => (exists c, l = LSum c) \/ exists c, l = LCount c) (leaves t) ->
    fits parse (sql_tree [] t) rows -> fetch (sexpr_value (sql_tree [] t) rows) = evalt native_value t (pandas_table rows).
  Proof.
    induction t as [l|r|a IHa b IHb|a IHa b IHb|a IHa b IHb|a IHa b IHb|a IHa|a IHa]; cbn [leaves sql_tree evalt]; intros H;
    try (apply Forall_app in H as [Ha Hb]); cbn [fits M_SqlLeaf.sexpr_value].
    - inversion H as [|? ? Hl _]; subst. destruct Hl as [[c ->]|[c ->]]; cbn [sql_columns fits M_SqlLeaf.sexpr_value M_SqlLeaf.sagg_value native_value native].
      + intros Hf. apply sum_fetch. exact Hf.
      + intros _. rewrite inputs_nil, col_fetch, count_fetch. reflexivity.
    - reflexivity.
    - intros [F1 F2]. rewrite add_fetch, IHa, IHb; auto.
    - intros [F1 F2]. rewrite sub_fetch, IHa, IHb; auto.
    - intros [F1 F2]. rewrite mul_fetch, IHa, IHb; auto.
    - intros (F1 & F2 & F3). rewrite div_fetch, IHa, IHb; auto.
    - intros F. rewrite xsqrt_fetch, IHa; auto.
    - intros F. rewrite sq_fetch, IHa; auto.
  Qed.
  Lemma full_only m : (forall agg, m <> LOther agg) -> Forall (fun l => (exists c, l = LSum c) \/ exists c, l = LCount c) (leaves (full (ELeaf m))).
  Proof.
    intros Hm. apply Forall_forall. intros l Hl. apply only_sum_count in Hl as [[c ->]|[[c ->]|(agg & -> & H)]]; eauto.
    destruct H as [H|[]]. exfalso. exact (Hm agg H).
  Qed.
  Lemma var_div l n : (S n <= List.length l)%nat -> 0 <= dev l / (INR (List.length l) - INR n).
  Proof.
    intros H. apply lt_INR in H. pose proof (dev_nonneg l). unfold Rdiv. apply Rmult_le_pos; auto. left. apply Rinv_0_lt_compat. lra.
  Qed.
  Lemma minus_0 x y : x / y = x / (y - INR 0). Proof. cbn. now rewrite Rminus_0_r. Qed.
  Lemma leaf_fetch l rows : supported l -> fits parse (sql_leaf l []) rows -> cov_same_nulls l rows ->
    fetch (sexpr_value (sql_leaf l []) rows) = pandas_leaf l (pandas_table rows).
  Proof.
    assert (forall d c, (d = 0 \/ d = 1)%Z -> fetch (sagg_value (if Z.eqb d 1 then VAR_SAMP (AIf [] c) else VAR_POP (AIf [] c)) rows) = xvar (col_of c (pandas_table rows)) d) as HV.
    { intros d c [->| ->]; cbn [Z.eqb Pos.eqb M_SqlLeaf.sagg_value]; rewrite inputs_nil, col_fetch.
      - rewrite (minus_0 (dev _)). rewrite <- (xvar_fetch (scell c) 0 rows) by auto. reflexivity.
      - exact (eq_sym (xvar_fetch (scell c) 1 rows (or_intror eq_refl))). }
    assert (forall d c, (d = 0 \/ d = 1)%Z -> fetch (sagg_value (if Z.eqb d 1 then STDDEV_SAMP (AIf [] c) else STDDEV_POP (AIf [] c)) rows) = xsqrt (xvar (col_of c (pandas_table rows)) d)) as HS.
    { intros d c Hd. rewrite <- HV by assumption. destruct Hd as [->| ->]; cbn [Z.eqb Pos.eqb M_SqlLeaf.sagg_value]; rewrite sqrt_fetch; auto.
      - intros H. rewrite (minus_0 (dev _)). now apply var_div.
      - intros H. now apply (var_div _ 1). }
    assert (forall c, fetch (sagg_value (AVG (AIf [] c)) rows) = xmean (col_of c (pandas_table rows))) as HM.
    { intros c. cbn [M_SqlLeaf.sagg_value]. rewrite inputs_nil, col_fetch, xmean_fetch. reflexivity. }
    assert (forall m, sql_columns (Lf m) [] = None -> native m (pandas_table rows) = None -> supported (Lf m) -> fits parse (sql_leaf (Lf m) []) rows ->
      fetch (sexpr_value (sql_leaf (Lf m) []) rows) = pandas_leaf (Lf m) (pandas_table rows)) as HT.
    { intros m E1 E2 Hs. unfold sql_leaf. rewrite E1. intros Hf. cbn [pandas_leaf]. unfold leaf_value. rewrite E2. unfold expanded_value.
      apply tree_fetch; auto. apply full_only. intros agg ->. exact Hs. }
    destruct l as [m|v|v|v].
    - cases_leaf m; intros Hs Hf Hc; try (apply HT; auto; fail); unfold sql_leaf in *; cbn [sql_columns] in *.
      + cbn [fits M_SqlLeaf.sexpr_value M_SqlLeaf.sagg_value] in *. apply sum_fetch. exact Hf.
      + cbn [M_SqlLeaf.sexpr_value M_SqlLeaf.sagg_value pandas_leaf]. unfold leaf_value. cbn [native]. rewrite inputs_nil, col_fetch, count_fetch. reflexivity.
      + cbn [M_SqlLeaf.sexpr_value M_SqlLeaf.sagg_value pandas_leaf]. unfold leaf_value. cbn [native]. rewrite inputs_prod_nil, col_fetch, xmean_fetch. reflexivity.
      + cbn [fits M_SqlLeaf.sexpr_value M_SqlLeaf.sagg_value pandas_leaf] in *. unfold leaf_value. cbn [native].
        rewrite <- (sum_fetch (Times a b) rows); [|exact Hf]. rewrite inputs_prod_nil, inputs_nil. reflexivity.
      + cbn [fits M_SqlLeaf.sexpr_value M_SqlLeaf.sagg_value pandas_leaf] in *. unfold leaf_value. cbn [native]. rewrite V_expanded, V_wmean.
        destruct Hf as (F1 & F2 & F3). rewrite div_fetch by exact F3. rewrite !sum_fetch by assumption. f_equal. f_equal. unfold col_of. apply map_ext.
        intros r. cbn [cellx]. destruct (cellx w r), (cellx c r); try reflexivity. cbn. f_equal. ring.
      + cbn [M_SqlLeaf.sexpr_value]. apply HM.
      + cbn [M_SqlLeaf.sexpr_value]. apply HV. exact Hs.
      + cbn [M_SqlLeaf.sexpr_value]. apply HS. exact Hs.
      + cbn [fits M_SqlLeaf.sexpr_value] in *. destruct Hf as (F1 & F2 & F3). rewrite div_fetch by exact F3. rewrite HS, HM by exact Hs. reflexivity.
      + destruct (Z.eqb d 1) eqn:E1; [|destruct (Z.eqb d 0) eqn:E0].
        * apply Z.eqb_eq in E1 as ->. cbn [M_SqlLeaf.sexpr_value M_SqlLeaf.sagg_value]. exact (cov_fetch a b 1 rows (or_intror eq_refl) Hc).
        * apply Z.eqb_eq in E0 as ->. cbn [M_SqlLeaf.sexpr_value M_SqlLeaf.sagg_value]. cbn zeta. rewrite (minus_0 (codev _)).
          exact (cov_fetch a b 0 rows (or_introl eq_refl) Hc).
        * cbn [pandas_leaf]. unfold leaf_value. cbn [native]. apply tree_fetch; auto. apply full_only. discriminate.
      + cbn [M_SqlLeaf.sexpr_value]. apply corr_fetch.
      + destruct Hs.
    - intros _ _ _. cbn. unfold agg_max. rewrite (inputs_nil (Col v)). rewrite <- xmax_fetch. f_equal. unfold column, pandas_table. rewrite !map_map. reflexivity.
    - intros _ _ _. cbn. unfold agg_min. rewrite (inputs_nil (Col v)). rewrite <- xmin_fetch. f_equal. unfold column, pandas_table. rewrite !map_map. reflexivity.
    - intros _ _ _. cbn. unfold agg_nunique. rewrite (inputs_nil (Col v)). rewrite <- distinct_fetch. do 4 f_equal. unfold column, pandas_table. rewrite !map_map. reflexivity.
  Qed.
End P.
