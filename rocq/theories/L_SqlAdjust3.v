(** PrePostRaw / CUPEDRaw: its rows are the aligned child and covariate of pandas. *)
From Coq Require Import Reals List Bool String Arith ZArith Permutation Lia Lra FunctionalExtensionality.
From Verif Require Import M_Num M_Frame L_Frame M_Ops S_Ops L_OpsA L_OpsB M_SqlGlobal S_SqlGlobal L_SqlGlobal M_SqlLeaf S_SqlLeaf L_SqlLeaf L_SqlLeaf2 M_SqlOps S_SqlOps L_SqlOps L_SqlOps2 L_SqlOps7 L_SqlBin L_SqlScope L_SqlOps5 M_SqlList S_SqlList L_SqlList L_SqlMHList1 L_SqlMHList2 M_SqlMHList M_Adjust L_Adjust M_SqlAdjust S_SqlAdjust L_SqlAdjust1 L_SqlAdjust2.
Import ListNotations.
Open Scope string_scope.
Open Scope list_scope.

Lemma assoc_some (cols : list string) (k : list string) c : assoc c (combine cols (List.map Some k)) = option_map Some (assoc c (combine cols k)).
Proof. revert k. induction cols as [|b cols IH]; intros [|l k]; try reflexivity. cbn [List.map combine assoc]. destruct (String.eqb b c); [reflexivity|apply IH]. Qed.
Lemma assoc_out' {A} (cols : list string) (k : list A) c : ~ In c cols -> assoc c (combine cols k) = None.
Proof. revert k. induction cols as [|b cols IH]; intros [|l k] H; try reflexivity. cbn [combine assoc]. destruct (String.eqb_spec b c) as [->|]; [exfalso; apply H; now left|]. apply IH. intros Hi. apply H. now right. Qed.
Lemma assoc_in' {A} (cols : list string) (k : list A) c : List.length k = List.length cols -> In c cols -> assoc c (combine cols k) <> None.
Proof. revert k. induction cols as [|b cols IH]; intros [|l k] HL H; try discriminate; [destruct H..|]. cbn [combine assoc]. destruct (String.eqb_spec b c) as [->|]; [discriminate|]. destruct H as [H|H]; [congruence|]. apply IH; auto. Qed.
Lemma filter_strings (f : string -> bool) l : (forall x, In x l -> f x = true) -> filter f l = l.
Proof. apply L_OpsA.filter_all. Qed.

Lemma num_of_number u : number (of_number u) = u. Proof. now destruct u. Qed.

Section Raw.
  Variables (x : adj_op) (s : list string).
  Hypothesis Hsup : supported_adj x s.
  Notation I := (adj_by x s).
  Notation glob := (get_global_filter (adj_filter_tree x)).
  Notation yn := (value_name (a_child x)).
  Notation xn := (value_name (a_cov x)).
  Definition adj_expr (m : otree) : sexpr := sql_column glob (adj_local x) (leaf_of m).
  Lemma adj_nodup : NoDup I. Proof. unfold supported_adj in Hsup. cbv zeta in Hsup. tauto. Qed.
  Lemma adj_leaf_child m : m = a_child x \/ m = a_cov x -> adj_child_sql x s m = SqlLeaf (Query (adj_expr m) glob I) (value_name m).
  Proof. intros Hm. destruct Hsup as (_ & _ & _ & _ & (m1 & n1 & E1) & (m2 & n2 & E2) & _). destruct Hm as [-> | ->]; unfold adj_expr; rewrite ?E1, ?E2; reflexivity. Qed.
  Definition adj_cols : list (string * sexpr) := [(yn, adj_expr (a_child x)); (xn, adj_expr (a_cov x))].
  Lemma adj_raw_is : adj_raw x s = Some (LLeaf adj_cols glob I).
  Proof.
    unfold adj_raw. rewrite !adj_leaf_child by auto. cbn [table_of q_col q_where q_by]. etransitivity; [exact (one_table_leaf glob I [(yn, adj_expr (a_child x))] [[(xn, adj_expr (a_cov x))]])|]. cbn [fold_left]. do 2 f_equal.
    unfold add_column. cbn [existsb List.map List.length fst snd orb]. destruct (same _ _) eqn:E.
    - exfalso. apply same_eq in E. destruct Hsup as (_ & _ & _ & _ & _ & _ & _ & HR & _). apply HR. rewrite !adj_leaf_child by auto. rewrite E. constructor.
    - cbn [orb app free_alias with_suffix]. cbn [mem existsb orb]. destruct Hsup as (_ & _ & _ & _ & _ & _ & HN & _). cbv zeta in HN.
      destruct (String.eqb_spec xn yn) as [E'|_]; [congruence|]. reflexivity.
  Qed.

  Section Data.
  Variables (parse : string -> cond) (srt : list okey -> list env -> list env) (psort : cum_how -> bool -> nat -> rframe -> rframe) (t : stable).
  Hypothesis Hdb : db_sorts srt.
  Hypothesis Hps : pandas_sorts psort.
  Hypothesis Hleaf : adj_leaves_fit parse x s t.
  Notation df := (pandas_table t).
  Lemma adj_child_step m : m = a_child x \/ m = a_cov x ->
    exists F, op_compute parse psort m I (filter (pfilters parse (a_where x)) df) = Some F /\ inv parse srt t (adj_child_sql x s m) I (value_name m) F.
  Proof.
    intros Hm. assert (exists m0 name, m = OLeaf m0 name /\ ~ In name I) as (m0 & name & Em & Hn).
    { destruct Hsup as (_ & _ & _ & _ & (m1 & n1 & E1) & (m2 & n2 & E2) & _ & _ & Hy & Hx & _). cbv zeta in Hy, Hx. destruct Hm as [-> | ->]; [exists m1, n1|exists m2, n2]; (split; [assumption|]); [rewrite E1 in Hy|rewrite E2 in Hx]; assumption. }
    assert (all_fit parse t glob m I (a_where x) (adj_local x)) as Hall by (intros b fs lc by' Hb; exact (Hleaf m Hm b fs lc by' Hb)).
    assert (supported_tree I m) as Hs by (rewrite Em; cbn [supported_tree value_name extra_idx]; rewrite app_nil_r; split; [exact Hn|apply adj_nodup]).
    pose proof (nonempty_above parse t glob m _ _ _ Hall) as Hw.
    pose proof (tree_step parse srt psort t Hdb Hps glob m I (a_where x) (adj_local x) Hall Hs) as HT. 
    assert (extra_idx m = []) as Ee by (rewrite Em; reflexivity). rewrite Ee, app_nil_r in HT. destruct HT as (F & E & HF & _).
    - assert (~ In "" (remove (add (add [] (a_where x)) []) glob)) as N1 by (intros Hi; apply remove_in in Hi as [Hi _]; revert Hi; apply add_nonempty, add_nonempty; intros []).
      split; [|split].
      + unfold adj_local. intros Hi. apply remove_in in Hi as [Hi _]. revert Hi. apply add_nonempty, add_nonempty. intros [].
      + intros row Hrow. unfold adj_local. rewrite spass_step by (assumption || intros []). rewrite spass_step by (assumption || intros []). cbn [spass]. change (spass parse [] row) with true. now rewrite ?andb_true_r, ?andb_true_l.
      + intros p Hp. assert (In p (paths [] (adj_filter_tree x))) as Hp'.
        { unfold adj_filter_tree. eapply paths_child; [now left|]. eapply paths_child with (c := ofilter_tree m); [destruct Hm as [-> | ->]; cbn; auto|]. cbn [app]. rewrite app_nil_r. exact Hp. }
        intros f Hf. apply (global_in_paths _ _ _ f) in Hp'; auto. intros ->. now apply nonempty_global in Hf.
    - rewrite Em. exact Coq.Init.Logic.I.
    - exists F. split; [exact E|]. rewrite Em in HF |- *. exact HF.
  Qed.

  Notation T := (as_table (run_table parse srt (LLeaf adj_cols glob I) t)).
  Notation groups := (leaf_groups parse t I glob).
  Definition group_row (sk : skey) : row := fun c => match assoc c (combine I sk) with
                                    | Some l => of_label l
                                    | None => match assoc c adj_cols with Some e => of_number (sexpr_value parse e (M_SqlLeaf.group I sk (filter (spass parse glob) t))) | None => Null end
                                    end.
  Lemma T_is : T = List.map (fun sk => SRow (fun c => label (group_row sk c)) (fun c => number (group_row sk c))) groups.
  Proof. cbn [run_table]. unfold as_table, leaf_groups. now rewrite map_map. Qed.
  Lemma column_values m F : m = a_child x \/ m = a_cov x -> inv parse srt t (adj_child_sql x s m) I (value_name m) F ->
    Permutation groups (List.map (List.map Some) (List.map fst F)) /\
    forall k, In k (List.map fst F) -> fetch (sexpr_value parse (adj_expr m) (M_SqlLeaf.group I (List.map Some k) (filter (spass parse glob) t))) = lookup k F.
  Proof.
    intros Hm (Hsh & _ & HP & Hfin & HN & _). rewrite adj_leaf_child in HP by assumption. rewrite leaf_rows in HP; [|exact adj_nodup|destruct Hsh as (_ & Hv & _); exact Hv]. split.
    - apply (Permutation_map fst) in HP. rewrite !map_map in HP. cbn [fst enc] in HP. rewrite map_id in HP. now rewrite map_map.
    - intros k Hk. pose proof (lookup_here k F Hk) as Hi. pose proof Hi as Hi2. apply (in_map enc) in Hi. apply (Permutation_in _ (Permutation_sym HP)) in Hi. apply in_map_iff in Hi as (sk & E & _). pose proof (f_equal fst E) as E1. pose proof (f_equal snd E) as E2. unfold enc in E1, E2. cbn [fst snd] in E1, E2. clear E. subst sk. rewrite E2.
      apply fetch_unf. rewrite Forall_forall in Hfin. exact (Hfin _ Hi2).
  Qed.
  Hypothesis Hfit : adj_fits parse psort x s df.
  Lemma raw_aligned : exists a b, adj_children parse psort x s df = Some (a, b) /\ Permutation (pandas_table T) (aligned I yn xn a b) /\
    labelled_rows I T /\ numbered yn T /\ numbered xn T.
  Proof.
    destruct (adj_child_step (a_child x) (or_introl eq_refl)) as (a & Ea & Ia). destruct (adj_child_step (a_cov x) (or_intror eq_refl)) as (b & Eb & Ib).
    assert (adj_children parse psort x s df = Some (a, b)) as EC by (unfold adj_children; cbv zeta; now rewrite Ea, Eb).
    exists a, b. split; [exact EC|]. destruct (Hfit a b EC) as [HK _]. destruct (column_values _ _ (or_introl eq_refl) Ia) as [Pa Va]. destruct (column_values _ _ (or_intror eq_refl) Ib) as [Pb Vb].
    destruct Ia as (_ & _ & _ & _ & Na & La). destruct Ib as (_ & _ & _ & _ & Nb & _).
    assert (forall k, In k (List.map fst b) <-> In k (List.map fst a)) as Hab by (intros k; split; intros Hk; [destruct (HK k (or_intror Hk)) as [(u & Hu) _]|destruct (HK k (or_introl Hk)) as [_ (u & Hu)]]; exact (in_map fst _ _ Hu)).
    destruct Hsup as (_ & _ & _ & _ & _ & _ & HN & _ & Hy & Hx & _). cbv zeta in HN, Hy, Hx.
    assert (Permutation (pandas_table T) (aligned I yn xn a b)) as HP.
    { rewrite T_is. unfold pandas_table. rewrite map_map. etransitivity; [apply Permutation_map; exact Pa|]. rewrite map_map. unfold aligned.
      etransitivity; [|apply Permutation_map, (NoDup_Permutation Na (NoDup_nodup _ _))].
      2:{ intros k. rewrite nodup_In, in_app_iff, Hab. tauto. }
      erewrite map_ext_in; [apply Permutation_refl|]. intros k Hk. unfold pandas_row. cbn [slab snum]. f_equal; apply functional_extensionality; intros c; unfold group_row; rewrite assoc_some.
      - destruct (assoc c (combine I k)); [reflexivity|]. cbn [option_map]. destruct (assoc c adj_cols); [|reflexivity]. now destruct (sexpr_value _ _ _).
      - destruct (String.eqb_spec c yn) as [->|Ny]; [|destruct (String.eqb_spec c xn) as [->|Nx]].
        + rewrite assoc_out' by exact Hy. cbn [option_map]. unfold adj_cols. cbn [assoc]. rewrite String.eqb_refl, num_of_number. now apply Va.
        + rewrite assoc_out' by exact Hx. cbn [option_map]. unfold adj_cols. cbn [assoc]. destruct (String.eqb_spec yn xn); [contradiction|]. rewrite String.eqb_refl, num_of_number. apply Vb, Hab, Hk.
        + destruct (assoc c (combine I k)); [reflexivity|]. cbn [option_map]. unfold adj_cols. cbn [assoc]. destruct (String.eqb_spec yn c); [congruence|]. destruct (String.eqb_spec xn c); [congruence|]. reflexivity. }
    split; [exact HP|]. assert (forall r, In r T -> exists k, In k (List.map fst a) /\ pandas_row r = Row (fun c => assoc c (combine I k)) (fun c => if String.eqb c yn then lookup k a else if String.eqb c xn then lookup k b else NaN)) as HR.
    { intros r Hr. apply (in_map pandas_row) in Hr. apply (Permutation_in _ HP) in Hr. unfold aligned in Hr. apply in_map_iff in Hr as (k & E & Hk). exists k. split; [|now symmetry]. apply nodup_In, in_app_iff in Hk. destruct Hk as [Hk|Hk]; [exact Hk|now apply Hab]. }
    split; [|split].
    - intros r c Hr Hc. destruct (HR r Hr) as (k & Hk & E). unfold pandas_row in E. injection E as E _. rewrite E. apply assoc_in'; [|exact Hc]. rewrite Forall_forall in La. apply in_map_iff in Hk as (kv & <- & Hkv). exact (La kv Hkv).
    - intros r Hr. destruct (HR r Hr) as (k & Hk & E). unfold pandas_row in E. injection E as _ E. apply (f_equal (fun f => f yn)) in E. rewrite String.eqb_refl in E.
      destruct (HK k (or_introl Hk)) as [(u & Hu) _]. rewrite (lookup_In _ _ _ Na Hu) in E. destruct (snum r yn) as [v|]; [eauto|discriminate].
    - intros r Hr. destruct (HR r Hr) as (k & Hk & E). unfold pandas_row in E. injection E as _ E. apply (f_equal (fun f => f xn)) in E. destruct (String.eqb_spec xn yn); [congruence|]. rewrite String.eqb_refl in E.
      destruct (HK k (or_introl Hk)) as [_ (u & Hu)]. rewrite (lookup_In _ _ _ Nb Hu) in E. destruct (snum r xn) as [v|]; [eauto|discriminate].
  Qed.
  End Data.
End Raw.
