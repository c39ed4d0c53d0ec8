(** Diversity metrics: the query of the whole operation. *)
From Coq Require Import Reals List Bool String Arith Permutation Sorted Lia Lra.
From Verif Require Import M_Num M_Frame L_Frame M_Ops S_Ops L_OpsA L_OpsB L_OpsC M_SqlGlobal L_SqlGlobal M_SqlLeaf S_SqlLeaf L_SqlLeaf L_SqlLeaf2 M_SqlOps S_SqlOps L_SqlOps L_SqlOps2 L_SqlOps3 L_SqlOps4 L_SqlOps5.
Import ListNotations.
Open Scope string_scope.
Open Scope list_scope.

Section DivOp.
  Variables (parse : string -> cond) (srt : list okey -> list env -> list env) (t : stable).
  Hypothesis Hsrt : db_sorts srt.
  Variables (by_ over : list string) (v : string) (c : sqlq) (F : rframe) (d : divm).
  Hypothesis Hinv : inv parse srt t c (by_ ++ over) v F.
  Let n := List.length by_.
  Hypothesis Hfit : div_fits d n F.
  Let D := distribution n F.
  Let dist := distribution_sql "" by_ over c.
  Let ks := level_keys n D.

  Lemma v_fresh : ~ In v (by_ ++ over). Proof. apply Hinv. Qed.
  Lemma dist_inv : inv parse srt t dist (by_ ++ over) v D.
  Proof.
    apply (dist_step parse srt t "" by_ over v c F Hinv).
    - intros k x Hi E. destruct Hfit as (_ & H & _). destruct (H k x Hi). contradiction.
    - apply v_fresh.
  Qed.
  Lemma div_cum_fits : cum_fits n CumOver F.
  Proof. destruct Hfit as (_ & H & _). split; [exact H|exact I]. Qed.
  Lemma D_fin r : In r D -> exists x, In (fst r, Fin x) F /\ total n (firstn n (fst r)) F <> 0%R /\ snd r = Fin (x / total n (firstn n (fst r)) F).
  Proof. intros Hr. apply (shares_fin n CumOver F r); [apply Hinv|apply div_cum_fits|exact Hr]. Qed.
  Lemma D_ne : D <> [].
  Proof. unfold D, distribution. destruct Hfit as (H & _). destruct F; [congruence|discriminate]. Qed.
  Lemma ks_mem g : In g ks <-> exists r, In r D /\ firstn n (fst r) = g.
  Proof.
    unfold ks. rewrite level_keys_In. split.
    - intros [[E ->]|[_ H]]; [|exact H]. pose proof D_ne. destruct D as [|r l]; [congruence|]. exists r. split; [now left|]. now rewrite E.
    - intros (r & Hr & E). destruct n as [|m]; [left|right; split; [discriminate|eauto]]. split; [reflexivity|]. now rewrite <- E.
  Qed.
  Lemma ks_nodup : NoDup ks. Proof. apply ksorted_NoDup, level_keys_sorted. Qed.
  Lemma D_len : Forall (fun r => List.length by_ <= List.length (fst r))%nat D.
  Proof.
    pose proof dist_inv as (_ & _ & _ & _ & _ & Hl). eapply Forall_impl; [|exact Hl]. intros r E. cbn in E. rewrite E, app_length. lia.
  Qed.
  Lemma ks_len g : In g ks -> List.length g = n.
  Proof.
    intros Hg. apply ks_mem in Hg as (r & Hr & <-). rewrite firstn_length. pose proof D_len as H. rewrite Forall_forall in H. specialize (H r Hr). fold n in H. lia.
  Qed.
  Lemma slice_numbers g : In g ks -> exists rs, rs <> [] /\ vals n g D = List.map Fin rs.
  Proof.
    intros Hg. destruct (all_fin (vals n g D)) as [rs E].
    - intros x Hx. unfold vals in Hx. apply in_map_iff in Hx as [r [<- Hr]]. apply group_In in Hr as [Hr _]. destruct (D_fin r Hr) as (y & _ & _ & Ey). eauto.
    - exists rs. split; [|exact E]. intros ->. apply ks_mem in Hg as (r & Hr & Eg). assert (In (snd r) (vals n g D)) as H by (unfold vals; apply in_map, group_In; auto).
      rewrite E in H. destruct H.
  Qed.
  Lemma short_rows : Permutation (obs by_ v (run_sql parse srt dist t)) (List.map (trunc (List.length by_)) D).
  Proof.
    pose proof dist_inv as (_ & _ & Hp & _). apply (Permutation_map (fun kv => (firstn n (fst kv), snd kv))) in Hp. rewrite map_map in Hp. unfold obs in Hp. rewrite map_map in Hp.
    etransitivity; [|etransitivity; [exact Hp|]].
    2:{ erewrite map_ext; [apply Permutation_refl|]. intros [k x]. unfold enc, trunc. cbn [fst snd]. now rewrite firstn_some. }
    unfold obs. erewrite map_ext; [apply Permutation_refl|]. intros r. cbn [fst snd]. f_equal.
    pose proof (key_of_firstn by_ over (plain_env r)) as E. rewrite !key_of_plain in E. exact E.
  Qed.
  Lemma by_nodup : NoDup by_.
  Proof.
    pose proof Hinv as ((H & _) & _). clear - H. induction by_ as [|b l IH]; [constructor|]. cbn in H. inversion H; subst. constructor; [|auto].
    intros Hb. apply H2, in_or_app. auto.
  Qed.

  (** an index by the split_by labels *)
  Lemma div_inv q name (A : list string -> num) :
    shape q by_ name -> well_scoped q = true -> Permutation (obs by_ name (run_sql parse srt q t)) (List.map enc (List.map (fun g => (g, A g)) ks)) ->
    (forall g, In g ks -> no_inf (A g)) -> inv parse srt t q by_ name (List.map (fun g => (g, A g)) ks).
  Proof.
    intros H1 H2 H3 H4. split; [exact H1|]. split; [exact H2|]. split; [exact H3|]. split; [|split].
    - apply Forall_map, Forall_forall. intros g Hg. cbn. auto.
    - rewrite map_map. cbn. rewrite map_id. apply ks_nodup.
    - apply Forall_map, Forall_forall. intros g Hg. cbn. now apply ks_len.
  Qed.
  Lemma dist_columns : filter (fun c => negb (mem c (add_cols by_ over))) (columns_of dist) = [v].
  Proof. rewrite add_cols_app by (apply Hinv). apply shape_vals, dist_inv. Qed.
  Lemma group_shape name x : ~ In name by_ -> shape (SqlSel [(name, x)] (From dist) None by_) by_ name.
  Proof. intros H. split; [apply by_nodup|]. split; [exact H|]. left. split; reflexivity. Qed.
  Lemma in_dist c' : In c' by_ \/ c' = v -> in_source (From dist) (Plain c') = true.
  Proof.
    intros H. apply (in_from dist (by_ ++ over) v); [apply dist_inv|]. destruct H as [H|H]; apply in_or_app; [left; apply in_or_app; auto|right; subst; now left].
  Qed.
  Lemma group_scoped q name x : well_scoped q = true -> (forall r, In r (crefs x) -> in_source (From q) r = true) ->
    (forall b, In b by_ -> in_source (From q) (Plain b) = true) -> well_scoped (SqlSel [(name, x)] (From q) None by_) = true.
  Proof.
    intros Hq H1 H2. cbn [well_scoped]. apply andb_true_intro. split; [|exact Hq]. rewrite forallb_forall. cbn [flat_map snd app]. rewrite app_nil_r. cbn [wrefs app].
    intros r Hr. apply in_app_or in Hr as [Hr|Hr]; [auto|]. apply in_map_iff in Hr as [b [<- Hb]]. auto.
  Qed.
  Lemma dist_scoped : well_scoped dist = true. Proof. apply dist_inv. Qed.

  (** one aggregate column *)
  Lemma agg_step name x (A : list num -> num) : ~ In name by_ -> aggregate x = true -> (forall r, In r (vrefs x) -> r = Plain v) ->
    (forall g rs grp e, In g ks -> vals n g D = List.map Fin rs -> rs <> [] -> Permutation (List.map (fun e => num_at e v) grp) (List.map Some rs) ->
                        column_cell grp grp e (Expr x) = of_number (unf (A (List.map Fin rs))) /\ no_inf (A (List.map Fin rs))) ->
    inv parse srt t (SqlSel [(name, Expr x)] (From dist) None by_) by_ name (List.map (fun g => (g, A (vals n g D))) ks).
  Proof.
    intros Hname Hagg Hrefs Hval. apply (div_inv _ name (fun g => A (vals n g D))).
    - now apply group_shape.
    - apply group_scoped; [apply dist_scoped| |intros b Hb; apply in_dist; auto]. intros r Hr. apply Hrefs in Hr. subst. apply in_dist. auto.
    - rewrite obs_cells.
      pose proof (group_rows parse srt t by_ name (Expr x) dist v D ks (fun g => of_number (unf (A (vals n g D)))) by_nodup Hname Hagg short_rows ks_nodup ks_mem D_ne D_len) as H.
      etransitivity; [apply Permutation_map, H|].
      + intros g grp e Hg Hp. destruct (slice_numbers g Hg) as (rs & Hne & E). fold n in Hp. rewrite E in *. rewrite unf_Fin in Hp. apply (Hval g rs grp e Hg E Hne Hp).
      + rewrite !map_map. cbn [fst snd]. erewrite map_ext; [apply Permutation_refl|]. intros g. unfold enc. cbn [fst snd]. now rewrite number_of_number.
    - intros g Hg. destruct (slice_numbers g Hg) as (rs & Hne & E). rewrite E.
      destruct (map_some_perm (List.map (fun e : env => num_at e v) (List.map (fun r => (fun _ => Num r) : env) rs)) rs) as (m & Em & Hm).
      { rewrite map_map. apply Permutation_refl. }
      apply (Hval g rs (List.map (fun r => (fun _ => Num r) : env) rs) (fun _ => Null) Hg E Hne). rewrite Em. now apply Permutation_map.
  Qed.

  (** the rows of Nxx's window *)
  Let cv := String.append "Cumulative " v.
  Let worder := window_order CumValues false over v.
  Lemma nxx_rows : ~ In cv by_ -> exists D', Permutation D' D /\ StronglySorted (fle CumValues false n) D' /\
    Permutation (obs by_ cv (run_sql parse srt (sel1 by_ cv (VCumOver v by_ worder) (From dist) None) t)) (List.map (trunc (List.length by_)) (group_cumsum n D')).
  Proof.
    intros Hcv. rewrite run_sel1 by (auto; reflexivity). cbn [orders]. rewrite run_src_from, where_none.
    set (envs := List.map plain_env (run_sql parse srt dist t)). destruct (Hsrt worder envs) as [Hsp Hss]. set (es := srt worder envs) in *.
    pose proof dist_inv as (_ & _ & Hp & _).
    assert (Permutation (List.map (ob (by_ ++ over) v) es) (List.map enc D)) as HpD.
    { etransitivity; [apply Permutation_map, Hsp|]. unfold envs. rewrite map_map. exact Hp. }
    destruct (as_frame _ _ _ _ HpD) as (D' & HD' & HR). exists D'. split; [exact HD'|].
    assert (forall r, In r D' -> exists x, snd r = Fin x) as Hfin.
    { intros r Hr. apply (Permutation_in _ HD') in Hr. destruct (D_fin r Hr) as (x & _ & _ & E). eauto. }
    split.
    - apply (ssorted_rel_in (fun e r => ob (by_ ++ over) v e = enc r) (fun a b => order_cmp worder a b <> Gt) _ es D' HR); [|exact Hss].
      intros e e' r r' H1 H2 He He'. unfold worder. rewrite (order_fcmp CumValues false by_ over v e e' r r') by auto. auto.
    - pose proof (cum_rows by_ over v worder envs es D' HR Hfin) as HC. fold n in HC.
      assert (List.map (fun p => (key_of by_ (snd p), value envs (fst p) (snd p) (VCumOver v by_ worder))) (prefixes [] es) =
              List.map (trunc (List.length by_)) (group_cumsum n D')) as ->; [|apply Permutation_refl].
      clear - HC. induction HC as [|p r l l' (H1 & H2 & _) HC IH]; [reflexivity|]. cbn [List.map]. rewrite IH. f_equal. unfold trunc. rewrite H2. f_equal.
      rewrite (key_of_firstn by_ over). unfold ob in H1. injection H1 as H1. rewrite H1. apply firstn_some.
  Qed.

  Lemma div_step : ~ In (div_name d v) by_ -> ~ In cv by_ ->
    inv parse srt t (diversity_sql d by_ over by_ dist) by_ (div_name d v)
        ((match d with HHI => hhi n | Entropy => entropy n | TopK k => top_k k n | Nxx s => nxx s n end) F).
  Proof.
    intros Hname Hcv. unfold diversity_sql. rewrite dist_columns. cbn [List.map].
    pose proof Hfit as (_ & _ & Hd). revert Hname Hd. generalize d. intros d' Hname Hd. destruct d' as [| |k|share].
    - change (hhi n F) with (List.map (fun g => (g, (fun l => xsum (List.map (fun x => xmul x x) l)) (vals n g D))) ks).
      apply agg_step; [exact Hname|reflexivity|intros r [<-|[]]; reflexivity|].
      intros g rs grp e Hg E Hne Hp. split; [now apply hhi_cell|]. rewrite squares_finite by apply no_inf_Fin. split; discriminate.
    - change (entropy n F) with (List.map (fun g => (g, (fun l => xsum (List.map (fun x => xmul (xopp x) (xlog x)) l)) (vals n g D))) ks).
      apply agg_step; [exact Hname|reflexivity|intros r [<-|[<-|[]]]; reflexivity|].
      intros g rs grp e Hg E Hne Hp. assert (Forall (fun x => 0 < x)%R rs) as Hpos.
      { apply Forall_forall. intros x Hx. assert (In (Fin x) (vals n g D)) as Hi by (rewrite E; now apply in_map). unfold vals in Hi.
        apply in_map_iff in Hi as [r [Er Hr]]. apply group_In in Hr as [Hr Eg]. destruct (D_fin r Hr) as (y & Hy & _ & Ey).
        specialize (Hd _ _ Hy). rewrite Ey in Er. injection Er as <-. exact Hd. }
      split; [now apply entropy_cell|]. rewrite entropy_finite; [split; discriminate|apply no_inf_Fin|]. rewrite finite_values_Fin. apply Forall_forall. intros x Hx.
      rewrite Forall_forall in Hpos. specialize (Hpos x Hx). lra.
    - pose proof Hd as Hk.
      assert (top_k k n F = List.map (fun g => (g, xsum (nlargest k (vals n g D)))) ks) as ->.
      { unfold top_k, groupby_level. fold D. fold ks. change (List.map (fun g => (g, nlargest k (List.map snd (filter (fun r => key_eqb (firstn n (fst r)) g) D)))) ks) with (List.map (fun g => (g, nlargest k (vals n g D))) ks).
        assert (filter (fun g : list string * list num => match snd g with [] => false | _ => true end) (List.map (fun g => (g, nlargest k (vals n g D))) ks) = List.map (fun g => (g, nlargest k (vals n g D))) ks) as E.
        { apply filter_all. intros q Hq. apply in_map_iff in Hq as [g [<- Hg]]. cbn [snd]. destruct (slice_numbers g Hg) as (rs & Hne & E). rewrite E.
          destruct (topk_cell v (List.map (fun r => (fun _ => Num r) : env) rs) (fun _ => Null) rs) with (k := k) as (l & _ & _ & _ & H); [rewrite map_map; apply Permutation_refl|exact Hne|exact Hk|].
          destruct (nlargest k (List.map Fin rs)); [congruence|reflexivity]. }
        rewrite E. destruct n; rewrite map_map; reflexivity. }
      set (arrays := SqlSel [(v, TopArray v k)] (From dist) None by_).
      change (SqlSel (pass_all by_ ++ [(div_name (TopK k) v, Expr (VSumArr v))]) (From arrays) None []) with (sel1 by_ (div_name (TopK k) v) (VSumArr v) (From arrays) None).
      assert (~ In v by_) as Hv by (intros H; apply v_fresh, in_or_app; auto).
      pose proof (group_shape v (TopArray v k) Hv) as Hsh. fold arrays in Hsh.
      assert (well_scoped arrays = true) as Hsc.
      { apply group_scoped; [apply dist_scoped| |intros b Hb; apply in_dist; auto]. intros r [<-|[]]. apply in_dist. auto. }
      apply (div_inv _ _ (fun g => xsum (nlargest k (vals n g D)))).
      + apply shape_sel1; [apply by_nodup|exact Hname].
      + apply scoped_sel1; [| | |exact Hsc].
        * intros b Hb. apply (in_from arrays by_ v); [exact Hsh|]. apply in_or_app. auto.
        * intros r [<-|[]]. apply (in_from arrays by_ v); [exact Hsh|]. apply in_or_app. right. now left.
        * intros r [].
      + rewrite run_sel1 by (auto; reflexivity). cbn [orders]. rewrite run_src_from, where_none.
        set (rows := run_sql parse srt arrays t). set (f := fun e : env => (key_of by_ e, value (List.map plain_env rows) [] e (VSumArr v))).
        change (Permutation (List.map (fun p => f (snd p)) (prefixes [] (List.map plain_env rows))) (List.map enc (List.map (fun g => (g, xsum (nlargest k (vals n g D)))) ks))).
        rewrite (prefixes_snd f), map_map.
        set (C := fun g => Arr (firstn k (sort_descR (finite_values (vals n g D))))).
        pose proof (group_rows parse srt t by_ v (TopArray v k) dist v D ks C by_nodup Hv eq_refl short_rows ks_nodup ks_mem D_ne D_len) as H. fold arrays in H. fold rows in H.
        set (h := fun p : skey * cell => (fst p, match snd p with Arr (a :: l) => Some (Rsum (a :: l)) | _ => None end)).
        change (Permutation (List.map (fun r => h (List.map (fun c => label (r c)) by_, r v)) rows) (List.map enc (List.map (fun g => (g, xsum (nlargest k (vals n g D)))) ks))).
        rewrite <- (map_map (fun r : row => (List.map (fun c => label (r c)) by_, r v)) h). fold (cells by_ v rows).
        etransitivity; [apply Permutation_map, H|].
        * intros g grp e Hg Hp. destruct (slice_numbers g Hg) as (rs & Hne & E). fold n in Hp. unfold C. rewrite E in *. rewrite unf_Fin in Hp. rewrite finite_values_Fin. cbn [column_cell].
          destruct (map_some_perm _ _ Hp) as (m & Em & Hm). rewrite Em, nonnull_Some. do 2 f_equal. apply desc_unique; try apply sort_descR_sorted. rewrite sort_descR_perm, sort_descR_perm. exact Hm.
        * rewrite !map_map. erewrite map_ext_in; [apply Permutation_refl|]. intros g Hg. unfold h, enc, C. cbn [fst snd]. f_equal.
          destruct (slice_numbers g Hg) as (rs & Hne & E). rewrite E, finite_values_Fin, nlargest_Fin, xsum_Fin. cbn [unf].
          assert (firstn k (sort_descR rs) <> []) as Hf.
          { pose proof (Permutation_length (sort_descR_perm rs)) as HL. destruct (sort_descR rs); [destruct rs; [congruence|discriminate]|]. destruct k; [congruence|discriminate]. }
          destruct (firstn k (sort_descR rs)); [congruence|reflexivity].
      + intros g Hg. destruct (slice_numbers g Hg) as (rs & Hne & E). rewrite E, nlargest_Fin, xsum_Fin. split; discriminate.
    - set (cum := sel1 by_ cv (VCumOver v by_ worder) (From dist) None).
      change (SqlSel (pass_all by_ ++ [(String.append "Cumulative " v, Expr (VCumOver v by_ [KCol v true]))]) (From dist) None []) with cum.
      change (nxx share n F) with (List.map (fun g => (g, nxx_col share (vals n g D))) ks). fold cv.
      pose proof (shape_sel1 by_ cv (VCumOver v by_ worder) (From dist) None by_nodup Hcv) as Hshc. fold cum in Hshc.
      assert (well_scoped cum = true) as Hsc.
      { apply scoped_sel1; [intros b Hb; apply in_dist; auto| |intros r []|apply dist_scoped].
        cbn [vrefs]. intros r [<-|Hr]; [apply in_dist; auto|]. apply in_app_or in Hr as [Hr|Hr]; [apply in_map_iff in Hr as [b [<- Hb]]; apply in_dist; auto|].
        cbn in Hr. destruct Hr as [<-|[]]. apply in_dist. auto. }
      apply (div_inv _ _ (fun g => nxx_col share (vals n g D))).
      + split; [apply by_nodup|]. split; [exact Hname|]. left. split; reflexivity.
      + apply group_scoped; [exact Hsc| |].
        * intros r [<-|[]]. apply (in_from cum by_ cv); [exact Hshc|]. apply in_or_app. right. now left.
        * intros b Hb. apply (in_from cum by_ cv); [exact Hshc|]. apply in_or_app. auto.
      + destruct (nxx_rows Hcv) as (D' & HD' & Hs & Hp). fold cum in Hp. rewrite obs_cells.
        assert (List.map fst (group_cumsum n D') = List.map fst D') as Ek by (unfold group_cumsum; apply cumsum_from_keys).
        assert (forall r', In r' D -> exists r, In r (group_cumsum n D') /\ fst r = fst r') as Hback.
        { intros r' Hr'. apply (Permutation_in _ (Permutation_sym HD')) in Hr'. apply (in_map fst) in Hr'. rewrite <- Ek in Hr'. apply in_map_iff in Hr' as [r [E Hr]]. eauto. }
        assert (forall r, In r (group_cumsum n D') -> exists r', In r' D /\ fst r' = fst r) as Hforth.
        { intros r Hr. apply (in_map fst) in Hr. rewrite Ek in Hr. apply in_map_iff in Hr as [r' [E Hr]]. exists r'. split; [now apply (Permutation_in _ HD')|exact E]. }
        etransitivity; [apply Permutation_map, (group_rows parse srt t by_ (div_name (Nxx share) v) (Expr (VAdd (VCountIfLess cv share) (VNum 1))) cum cv (group_cumsum n D') ks (fun g => of_number (unf (nxx_col share (vals n g D)))) by_nodup Hname eq_refl Hp ks_nodup)|].
        * intros g. rewrite ks_mem. split.
          -- intros (r' & Hr' & E). destruct (Hback r' Hr') as (r & Hr & Er). exists r. fold n. now rewrite Er.
          -- intros (r & Hr & E). destruct (Hforth r Hr) as (r' & Hr' & Er). exists r'. fold n in E. now rewrite Er.
        * intros E. destruct D as [|r0 l0] eqn:EqD; [now apply D_ne|]. destruct (Hback r0 (or_introl eq_refl)) as (r & Hr & _). rewrite E in Hr. destruct Hr.
        * apply Forall_forall. intros r Hr. destruct (Hforth r Hr) as (r' & Hr' & <-). pose proof D_len as H. rewrite Forall_forall in H. now apply H.
        * intros g grp e Hg Hpg. fold n in Hpg. destruct (slice_numbers g Hg) as (rs & Hne & E).
          (* the slice in descending order *)
          assert (Permutation (vals n g D') (List.map Fin rs)) as Hv1 by (rewrite <- E; now apply vals_perm).
          destruct (Permutation_map_inv _ _ Hv1) as (ss & Es & Hss). apply Permutation_sym in Hss.
          assert (StronglySorted Rge ss) as Hdesc.
          { assert (StronglySorted (fle CumValues false n) (S_Ops.group n g D')) as Hg' by (now apply ssorted_filter).
            unfold vals in Es. clear - Hg' Es. revert ss Es. induction Hg' as [|r l Hl IH Hf]; intros [|x ss] Es; try discriminate; [constructor|]. cbn [List.map] in Es. injection Es as Ex Es. constructor; [now apply IH|].
            clear IH Hl. revert ss Es. induction Hf as [|r' l Hr' Hf IH]; intros [|y ss] Es; try discriminate; [constructor|]. cbn [List.map] in Es. injection Es as Ey Es. constructor; [|now apply IH].
            unfold fle in Hr'. cbn [fcmp frame_cmp] in Hr'. rewrite Ex, Ey in Hr'. apply Rcmp_le in Hr'. lra. }
          assert (finite_values (vals n g (group_cumsum n D')) = prefix_sums 0 ss) as Eps.
          { unfold vals, group_cumsum. rewrite cumsum_group. cbn [vals S_Ops.group filter List.map]. rewrite cums_nums; [|constructor|fold (vals n g D'); rewrite Es; apply no_inf_Fin].
            cbn [finite_values Rsum]. fold (vals n g D'). now rewrite Es, finite_values_Fin. }
          assert (vals n g (group_cumsum n D') = List.map Fin (prefix_sums 0 ss)) as Eall.
          { rewrite <- Eps. assert (forall x, In x (vals n g (group_cumsum n D')) -> exists r, x = Fin r) as Hf.
            { pose proof Hpg as Hpg'. clear Hpg'. destruct (all_fin (List.map snd (cums [] (S_Ops.group n g D')))) as [ps Eps'].
              - clear Eps. unfold vals in Es. clear - Es. assert (forall x, In x (@nil num) -> exists r, x = Fin r) as H0 by (intros x []). revert H0. generalize (@nil num). revert ss Es.
                induction (S_Ops.group n g D') as [|r l IH]; intros ss Es acc H0 x Hx; [destruct Hx|]. destruct ss as [|y ss]; [discriminate|]. cbn [List.map] in Es. injection Es as Ey Es.
                cbn [cums List.map snd] in Hx. destruct Hx as [<-|Hx].
                + rewrite Ey. cbn [is_nan]. rewrite xsum_finite; [eauto|]. apply Forall_app. split; [|repeat constructor; discriminate]. apply Forall_forall. intros z Hz. destruct (H0 z Hz) as [q ->]. split; discriminate.
                + apply (IH ss Es (acc ++ [snd r])); auto. intros z Hz. apply in_app_or in Hz as [Hz|[<-|[]]]; eauto.
              - intros x Hx. unfold vals, group_cumsum in Hx. rewrite cumsum_group in Hx. cbn [vals S_Ops.group filter List.map] in Hx. rewrite Eps' in Hx. apply in_map_iff in Hx as [r [<- _]]. eauto. }
            destruct (all_fin _ Hf) as [ps Ep]. rewrite Ep, finite_values_Fin. reflexivity. }
          rewrite Eall, unf_Fin in Hpg. rewrite (count_cell cv grp e _ Hpg share).
          rewrite E. unfold nxx_col. cbn [unf of_number]. f_equal. f_equal. f_equal. 
          rewrite (proj2 (cumsum_desc 0 _ (sort_desc_desc _ (no_inf_Fin rs))) share). do 3 f_equal.
          symmetry. apply (Rdesc_unique rs ss); assumption.
        * rewrite !map_map. cbn [fst snd]. erewrite map_ext; [apply Permutation_refl|]. intros g. unfold enc. cbn [fst snd]. now rewrite number_of_number.
      + intros g Hg. split; discriminate.
  Qed.
End DivOp.
