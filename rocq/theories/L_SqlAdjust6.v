(** CUPED: every row of CUPEDRaw joined with the theta of its slice; the whole query. *)
From Coq Require Import Reals List Bool String Arith ZArith Permutation Lia Lra FunctionalExtensionality.
From Verif Require Import M_Num M_Frame L_Frame M_Ops S_Ops M_Leaf S_Leaf L_Leaf L_Leaf2 L_Slices M_SqlGlobal L_SqlGlobal M_SqlLeaf S_SqlLeaf L_SqlLeaf L_SqlLeaf2 M_SqlOps S_SqlOps L_SqlOps L_SqlOps5 L_SqlOps7 L_SqlBin S_RowOrder L_RowOrder M_SqlList S_SqlList M_SqlMHList M_Adjust L_Adjust M_SqlAdjust S_SqlAdjust L_SqlAdjust1 L_SqlAdjust2 L_SqlAdjust3 L_SqlAdjust4 L_SqlAdjust5.
Import ListNotations.
Open Scope string_scope.
Open Scope list_scope.

Lemma filter_one {A} (dec : forall a b : A, {a = b} + {a <> b}) k l : NoDup l -> In k l -> filter (fun k' => if dec k k' then true else false) l = [k].
Proof.
  induction 1 as [|a l Ha HN IH]; [intros []|]. cbn [filter]. intros [->|Hi].
  - destruct (dec k k); [|congruence]. f_equal. apply L_OpsA.filter_none. intros b Hb. destruct (dec k b); [congruence|reflexivity].
  - destruct (dec k a) as [->|]; [contradiction|auto].
Qed.
Lemma flat_one {A B} (f : A -> list B) g l : (forall a, In a l -> f a = [g a]) -> flat_map f l = List.map g l.
Proof. induction l as [|a l IH]; intros H; [reflexivity|]. cbn [flat_map List.map]. rewrite H by now left. rewrite IH; [reflexivity|]. intros; apply H; now right. Qed.

Section Join.
  Variables (parse : string -> cond) (s : list string) (e : sexpr) (th : string) (Rw : list row) (cols1 : list string).
  Hypothesis Hs : NoDup s.
  Notation T := (as_table Rw).
  Hypothesis HL : labelled_rows s T.
  Hypothesis Hth : ~ In th s.
  Hypothesis Hth1 : ~ In th cols1.
  Hypothesis Hnull : forall r c, In r Rw -> ~ In c cols1 -> r c = Null.
  Definition join_key (r : row) : skey := List.map (fun c => label (r c)) s.
  Definition theta_row (k : skey) : row := fun c => match assoc c (combine s k) with
                                                  | Some l => of_label l
                                                  | None => if String.eqb c th then of_number (sexpr_value parse e (M_SqlLeaf.group s k T)) else Null
                                                  end.
  Definition theta_keys : list skey := match s with [] => [[]] | _ => nodup skey_dec (List.map (srow_key s) T) end.
  Lemma theta_rows srt : run_sql parse srt (SqlLeaf (Query e [] s) th) T = List.map theta_row theta_keys.
  Proof.
    cbn [run_sql]. unfold run_query. cbn [q_by q_where q_col]. rewrite map_map. cbn [fst snd].
    assert (filter (spass parse []) T = T) as -> by (apply L_OpsA.filter_all; reflexivity). reflexivity.
  Qed.
  Lemma labels_here r c : In r Rw -> In c s -> label (r c) <> None.
  Proof. intros Hr Hc. apply (HL (SRow (fun c => label (r c)) (fun c => number (r c))) c); [|exact Hc]. apply in_map_iff. eauto. Qed.
  Lemma keys_table : List.map (srow_key s) T = List.map join_key Rw.
  Proof. unfold as_table. rewrite map_map. reflexivity. Qed.
  Lemma theta_keys_cases : (s = [] /\ theta_keys = [[]]) \/ (s <> [] /\ theta_keys = nodup skey_dec (List.map join_key Rw)).
  Proof. pose proof keys_table as K. unfold theta_keys. rewrite K. generalize (List.map join_key Rw). clear. intros l. destruct s; [left|right]; split; try reflexivity. discriminate. Qed.
  Lemma key_there r : In r Rw -> In (join_key r) theta_keys.
  Proof.
    intros Hr. destruct theta_keys_cases as [[E ->]|[_ ->]]; [left; unfold join_key; now rewrite E|]. apply nodup_In, in_map, Hr.
  Qed.
  Lemma theta_keys_nodup : NoDup theta_keys.
  Proof. destruct theta_keys_cases as [[_ ->]|[_ ->]]; [constructor; [intros []|constructor]|apply NoDup_nodup]. Qed.
  Lemma theta_keys_from k : In k theta_keys -> List.length k = List.length s /\ (s <> [] -> exists r, In r Rw /\ join_key r = k).
  Proof.
    destruct theta_keys_cases as [[E ->]|[_ ->]]; [intros [<-|[]]; rewrite E; split; [reflexivity|congruence]|]. intros H. apply nodup_In, in_map_iff in H as (r & <- & Hr). split; [unfold join_key; apply map_length|eauto].
  Qed.
  Lemma theta_labels k : List.length k = List.length s -> List.map (fun c => label (theta_row k c)) s = k.
  Proof.
    intros Hk. etransitivity; [|apply (map_assoc_combine s _ Hs Hk)]. apply map_ext_in. intros c Hc. unfold theta_row. pose proof (assoc_in' s k c Hk Hc). destruct (assoc c (combine s k)) as [l|]; [|congruence]. now destruct l.
  Qed.
  Lemma match_key r k : In r Rw -> In k theta_keys -> match_using s r (theta_row k) = if skey_dec (join_key r) k then true else false.
  Proof.
    intros Hr Hk. apply theta_keys_from in Hk as [Hk _]. pose proof (theta_labels k Hk) as HT. destruct (skey_dec (join_key r) k) as [E|N].
    - unfold match_using. apply forallb_forall. intros c Hc. unfold join_key in E. assert (label (r c) = label (theta_row k c)) as Ec.
      { rewrite <- HT in E. apply (ext_in_map E). exact Hc. }
      rewrite <- Ec. pose proof (labels_here r c Hr Hc). destruct (label (r c)); [apply String.eqb_refl|congruence].
    - apply not_true_is_false. intros E. apply N. rewrite <- HT. unfold join_key. apply map_ext_in. intros c Hc. unfold match_using in E. rewrite forallb_forall in E. specialize (E c Hc).
      destruct (label (r c)), (label (theta_row k c)); try discriminate. apply String.eqb_eq in E. now subst.
  Qed.
  Lemma partner r : In r Rw -> filter (match_using s r) (List.map theta_row theta_keys) = [theta_row (join_key r)].
  Proof.
    intros Hr. rewrite L_SqlLeaf2.filter_map_comm. rewrite (List.filter_ext_in _ (fun k => if skey_dec (join_key r) k then true else false)) by (intros k Hk; now apply match_key).
    rewrite filter_one; [reflexivity|exact theta_keys_nodup|now apply key_there].
  Qed.
  Lemma joined_is : List.map (fun e => SRow (fun c => label (e (Plain c))) (fun c => number (e (Plain c)))) (full_join "CUPEDRaw" cols1 "CUPEDTheta" s Rw (List.map theta_row theta_keys)) =
    List.map (fun r => SRow (slab r) (fun c => if String.eqb c th then sexpr_value parse e (M_SqlLeaf.group s (srow_key s r) T) else snum r c)) T.
  Proof.
    unfold full_join. rewrite (flat_one _ (fun r => full_env "CUPEDRaw" cols1 "CUPEDTheta" s r (theta_row (join_key r)))) by (intros r Hr; now rewrite partner).
    assert (match s with [] => [] | _ :: _ => List.map (fun r1 => full_env "CUPEDRaw" cols1 "CUPEDTheta" s r1 no_row) (filter (fun r1 => negb (existsb (match_using s r1) (List.map theta_row theta_keys))) Rw) ++
        List.map (full_env "CUPEDRaw" cols1 "CUPEDTheta" s no_row) (filter (fun r2 => negb (existsb (fun r1 => match_using s r1 r2) Rw)) (List.map theta_row theta_keys)) end = []) as ->.
    { assert (forall l : list env, (s <> [] -> l = []) -> match s with [] => [] | _ :: _ => l end = []) as HM by (clear; intros l H; destruct s; [reflexivity|apply H; discriminate]). apply HM. intros Hne. clear HM. rewrite (L_OpsA.filter_none _ Rw), (L_OpsA.filter_none _ (List.map theta_row theta_keys)); [reflexivity| |].
      - intros r2 H2. apply in_map_iff in H2 as (k & <- & Hk). apply negb_false_iff. apply existsb_exists. pose proof (theta_keys_from k Hk) as [_ HF]. destruct (HF Hne) as (r & Hr & Er). exists r. split; [exact Hr|]. rewrite match_key by assumption. destruct (skey_dec _ _); congruence.
      - intros r Hr. apply negb_false_iff. apply existsb_exists. exists (theta_row (join_key r)). split; [apply in_map, key_there, Hr|]. rewrite match_key by auto using key_there. destruct (skey_dec _ _); congruence. }
    rewrite app_nil_r. unfold as_table at 2. rewrite !map_map. apply map_ext_in. intros r Hr. cbn [slab snum]. change (srow_key s (SRow (fun c => label (r c)) (fun c => number (r c)))) with (join_key r).
    assert (List.length (join_key r) = List.length s) as Lk by (unfold join_key; apply map_length).
    f_equal; apply functional_extensionality; intros c; cbn [full_env]; unfold full_env.
    - destruct (mem c s) eqn:Ec; [apply mem_in in Ec; pose proof (labels_here r c Hr Ec); destruct (r c); cbn in *; congruence|]. destruct (mem c cols1) eqn:E1; [reflexivity|]. rewrite (Hnull r c Hr) by (rewrite <- mem_in; congruence). unfold theta_row. rewrite assoc_out' by (rewrite <- mem_in; congruence).
      destruct (String.eqb c th); [now destruct (sexpr_value _ _ _)|reflexivity].
    - destruct (String.eqb_spec c th) as [->|Nt].
      + assert (mem th s = false) as -> by (apply not_true_is_false; rewrite mem_in; exact Hth). assert (mem th cols1 = false) as -> by (apply not_true_is_false; rewrite mem_in; exact Hth1).
        unfold theta_row. rewrite assoc_out' by exact Hth. rewrite String.eqb_refl. apply num_of_number.
      + destruct (mem c s) eqn:Ec; [apply mem_in in Ec; pose proof (labels_here r c Hr Ec); destruct (r c); cbn in *; congruence|]. destruct (mem c cols1) eqn:E1; [reflexivity|]. rewrite (Hnull r c Hr) by (rewrite <- mem_in; congruence). unfold theta_row. rewrite assoc_out' by (rewrite <- mem_in; congruence).
        destruct (String.eqb_spec c th); [contradiction|reflexivity].
  Qed.
End Join.

Section Theta.
  Variables (parse : string -> cond) (s : list string) (y x th : string) (T : stable).
  Hypothesis HL : labelled_rows s T.
  Hypothesis Hy : numbered y T.
  Hypothesis Hx : numbered x T.
  Definition theta_expr : sexpr := sql_column [] [] (theta_sql_metric y x).
  Definition added : stable := List.map (fun r => SRow (slab r) (fun c => if String.eqb c th then sexpr_value parse theta_expr (M_SqlLeaf.group s (srow_key s r) T) else snum r c)) T.
  Lemma theta_fetch rows : numbered y rows -> numbered x rows -> fetch (sexpr_value parse theta_expr rows) = theta y x (pandas_table rows).
  Proof.
    intros Ny Nx. change theta_expr with (XDiv (XAgg (COVAR_SAMP (AIf [] (Col y)) (AIf [] (Col x)))) (XAgg (VAR_SAMP (AIf [] (Col x))))). cbn [sexpr_value].
    pose proof (ratio_fits parse y x rows Ny Nx) as HR. cbn [sexpr_value] in HR.
    pose proof (leaf_fetch parse (Lf (LVar (Col x) 1 None)) rows (or_intror eq_refl) I I) as V. pose proof (leaf_fetch parse (Lf (LCov (Col y) (Col x) 1 None None)) rows I I) as C.
    assert (cov_same_nulls (Lf (LCov (Col y) (Col x) 1 None None)) rows) as N by (intros r Hr; cbn; destruct (Ny r Hr) as [u ->], (Nx r Hr) as [v ->]; split; discriminate). specialize (C N). cbn [pandas_leaf] in V, C.
    change (fetch (sagg_value parse (VAR_SAMP (AIf [] (Col x))) rows) = leaf_value (LVar (Col x) 1 None) (pandas_table rows)) in V.
    change (fetch (sagg_value parse (COVAR_SAMP (AIf [] (Col y)) (AIf [] (Col x))) rows) = leaf_value (LCov (Col y) (Col x) 1 None None) (pandas_table rows)) in C.
    unfold theta, theta_metric. cbn [evalt]. rewrite <- V, <- C. rewrite <- div_fetch; [reflexivity|]. intros E. right. now apply HR.
  Qed.
  Lemma group_numbered c k : numbered c T -> numbered c (M_SqlLeaf.group s k T).
  Proof. intros H r Hr. apply group_In in Hr. apply H. tauto. Qed.
  Lemma added_pandas : pandas_table added = with_theta s y x th (pandas_table T).
  Proof.
    unfold with_theta, added, pandas_table at 1 3. rewrite !map_map. apply map_ext_in. intros r Hr. unfold pandas_row at 1, set_val. cbn [slab snum]. f_equal. apply functional_extensionality. intros c.
    destruct (String.eqb c th); [|reflexivity]. rewrite theta_fetch by now apply group_numbered. unfold theta_of. destruct (srow_key_labels s r) as [k Ek]; [intros c' Hc; exact (HL r c' Hr Hc)|]. pose proof Ek as Ek'. apply row_key_pandas in Ek'. rewrite Ek', Ek. now rewrite slice_group.
  Qed.
  Lemma added_labelled by_ : labelled_rows by_ T -> labelled_rows by_ added.
  Proof. intros H r' c Hr Hc. apply in_map_iff in Hr as (r & <- & Hr). cbn. now apply H. Qed.
End Theta.

Section Result.
  Variables (parse : string -> cond) (srt : list okey -> list env -> list env) (psort : cum_how -> bool -> nat -> rframe -> rframe) (t : stable) (x : adj_op) (s : list string).
  Hypothesis Hdb : db_sorts srt.
  Hypothesis Hps : pandas_sorts psort.
  Hypothesis Hsup : supported_adj x s.
  Hypothesis Hleaf : adj_leaves_fit parse x s t.
  Hypothesis Hfit : adj_fits parse psort x s (pandas_table t).
  Notation yn := (value_name (a_child x)).
  Notation xn := (value_name (a_cov x)).
  Notation q := (LLeaf (adj_cols x) (get_global_filter (adj_filter_tree x)) (adj_by x s)).
  Lemma joined_table : a_kind x = Cuped -> labelled_rows (adj_by x s) (as_table (run_table parse srt q t)) ->
    cuped_joined parse srt s q t = added parse s yn xn (theta_name yn) (as_table (run_table parse srt q t)).
  Proof.
    intros Hk HL. destruct Hsup as (_ & _ & _ & HN & _ & _ & Hyx & _ & Hy & Hx & _ & _ & HC). cbv zeta in *. destruct (HC Hk) as [Htx Htb]. fold (theta_name yn) in Htx, Htb. clear HC.
    unfold cuped_joined. cbv zeta. unfold adj_value, adj_covariate. cbn [lcolumns adj_cols List.map fst List.hd List.last]. rewrite theta_rows.
    assert (incl s (adj_by x s)) as Hi by (intros c Hc; unfold adj_by; apply in_or_app; auto).
    assert (lall_columns q = adj_by x s ++ [yn; xn]) as Ecols.
    { unfold lall_columns. cbn [lgroupby lcolumns adj_cols List.map fst]. f_equal. apply L_OpsA.filter_all. intros c [<-|[<-|[]]]; apply negb_true_iff, not_true_is_false; rewrite mem_in; assumption. }
    unfold added, theta_expr. apply joined_is.
    - unfold adj_by in HN. revert HN. generalize (a_strata x ++ a_cond x). clear. intros l HN. induction s as [|c n IH]; [constructor|]. cbn [app] in HN. inversion HN; subst. constructor; [intros Hi; apply H1, in_or_app; auto|auto].
    - exact (labelled_sub _ _ _ Hi HL).
    - intros H. apply Htb, Hi, H.
    - rewrite Ecols. intros H. apply in_app_or in H as [H|[H|[H|[]]]]; [contradiction| |congruence].
      revert H. unfold theta_name. clear. induction yn as [|c n IH]; cbn; [discriminate|]. intros H. injection H as H. auto.
    - intros r c Hr Hc. rewrite Ecols in Hc. cbn [run_table] in Hr. apply in_map_iff in Hr as (k & <- & _). rewrite assoc_out' by (intros H; apply Hc, in_or_app; auto). unfold adj_cols. cbn [assoc].
      destruct (String.eqb_spec yn c); [exfalso; apply Hc; subst c; apply in_or_app; right; now left|]. destruct (String.eqb_spec xn c); [exfalso; apply Hc; subst c; apply in_or_app; right; right; now left|]. reflexivity.
  Qed.
  Lemma cuped_result : a_kind x = Cuped -> exists rows result, adj_sql parse srt x s t = Some rows /\ adj_pandas parse psort x s (pandas_table t) = Some result /\
    same_rows (shown (adj_index x s) (adj_name x) rows) result.
  Proof.
    intros Hk. destruct (raw_aligned x s Hsup parse srt psort t Hdb Hps Hleaf Hfit) as (a & b & EC & HP & HL & Hy & Hx). destruct (Hfit a b EC) as [_ HF]. rewrite Hk in HF.
    destruct (index_facts x s Hsup) as (C1 & C2 & C3 & C4 & C5). pose proof (labelled_sub _ _ _ C4 HL) as HL'. pose proof (joined_table Hk HL) as EJ.
    assert (yn <> xn) as yx by (destruct Hsup as (_ & _ & _ & _ & _ & _ & H & _); exact H).
    assert (theta_name yn <> xn) as tx by (destruct Hsup as (_ & _ & _ & _ & _ & _ & _ & _ & _ & _ & _ & _ & H); destruct (H Hk) as [H' _]; intros E; apply H'; now rewrite <- E).
    assert (theta_name yn <> yn) as ty by (unfold theta_name; clear; intros H; induction yn as [|c n IH]; cbn in H; [discriminate|]; injection H as H; auto).
    unfold adj_sql, adj_pandas. rewrite (adj_raw_is x s Hsup), EC, Hk. cbv zeta. rewrite EJ. unfold adj_value, adj_covariate. cbn [lcolumns adj_cols List.map fst List.hd List.last].
    set (T := as_table _) in *. unfold change_of. rewrite Hk. set (A := aligned _ _ _ a b) in *.
    pose proof (perm_complete _ _ _ HP (numbered_complete _ _ Hy)) as Cy. pose proof (perm_complete _ _ _ HP (numbered_complete _ _ Hx)) as Cx.
    assert (labelled_rows s T) as HLs by (apply (labelled_sub (s ++ a_cond x)); [intros c Hc; apply in_or_app; auto|exact HL']).
    assert (ES : compute parse (cuped_metric yn xn) (s ++ a_cond x) (pandas_table (added parse s yn xn (theta_name yn) T)) =
                 List.map (fun k => (k, sql_adjusted_value s (a_cond x) yn xn (theta_name yn) A parse k)) (group_keys (s ++ a_cond x) A)).
    { rewrite (added_pandas parse s yn xn (theta_name yn) T HLs Hy Hx).
      rewrite (compute_perm parse (cuped_metric yn xn) (s ++ a_cond x)) with (df' := with_theta s yn xn (theta_name yn) A); [|cbn; tauto|now apply with_theta_perm].
      rewrite compute_mval by (cbn; tauto). unfold compute_leaf, sql_adjusted_value. f_equal. unfold with_theta. apply group_keys_map. intros r. apply row_key_set. }
    assert (EP : cuped_adjusted s (a_cond x) yn xn A = List.map (fun k => (k, pandas_adjusted_value s (a_cond x) yn xn A k)) (group_keys (s ++ a_cond x) A)).
    { unfold cuped_adjusted, pandas_adjusted_value. cbv zeta. now rewrite keys_centered. }
    rewrite EP in HF.
    destruct (change_by parse srt psort Hdb Hps false s (a_cond x) (a_base x) (a_include_base x) (cuped_metric yn xn) yn (added parse s yn xn (theta_name yn) T)) as (result & E & R); auto.
    - destruct Hsup as (_ & _ & _ & _ & _ & _ & _ & _ & _ & _ & _ & H & _). cbv zeta in H. rewrite Hk in H. exact H.
    - apply Verif.L_SqlAdjust2.cuped_fits. now apply added_labelled.
    - rewrite ES. destruct HF as [F1 F2]. split.
      + destruct (group_keys (s ++ a_cond x) A); [now cbn in F1|discriminate].
      + intros s0 c r v L1 L2 Hi. apply in_map_iff in Hi as (k & Ek & Hk'). injection Ek as Ek _. rewrite Ek in Hk'.
        destruct (F2 s0 c r (pandas_adjusted_value s (a_cond x) yn xn A (s0 ++ c ++ r)) L1 L2) as (bv & Hb & _).
        { apply in_map_iff. eauto. }
        apply in_map_iff in Hb as (k' & Ek' & Hb). injection Ek' as Ek' _. rewrite Ek' in Hb. eexists. split; [|discriminate]. apply in_map_iff. exists (s0 ++ a_base x ++ r). split; [reflexivity|exact Hb].
    - eexists. exists result. split; [reflexivity|]. split.
      + rewrite ES in E. unfold cuped. rewrite EP. rewrite <- E. symmetry.
        apply (absolute_shift _ _ _ _ _ _ _ (fun k0 => (slope (at_ (Col xn)) (at_ (Col yn)) (slice s k0 A) * mean_of (at_ (Col xn)) (slice s k0 A))%R)).
        * intros k Hk'. destruct (split_key s (a_cond x) A C1 k Hk') as (k0 & c & -> & L0 & _). rewrite app_length. lia.
        * intros k Hk'. apply (values_differ s (a_cond x) yn xn (theta_name yn) A yx ty tx C1 Cy Cx parse eq_refl k Hk').
      + rewrite renamed_shown; [exact R|]. destruct Hsup as (_ & _ & _ & _ & _ & _ & _ & _ & _ & _ & H & _). exact H.
  Qed.
End Result.
