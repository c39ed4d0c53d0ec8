(** MHRaw: the leaf metrics of all ratios in one table, each found again by its expression. *)
From Coq Require Import Reals List Bool String Arith Permutation Lia Lra.
From Verif Require Import M_Num M_Frame L_Frame M_Ops S_Ops L_OpsA L_OpsB M_SqlGlobal S_SqlGlobal L_SqlGlobal M_SqlLeaf S_SqlLeaf L_SqlLeaf L_SqlLeaf2 M_SqlOps S_SqlOps L_SqlOps L_SqlOps2 L_SqlOps7 L_SqlBin L_SqlScope M_SqlList S_SqlList L_SqlList L_SqlList2 L_SqlList3 M_SqlMixedJack M_SqlMH S_SqlMH M_OpList M_SqlMHList S_SqlMHList L_SqlMHList1.
Import ListNotations.
Open Scope string_scope.
Open Scope list_scope.

Lemma put_all_leaf g b : forall css C, fst (put_all [LLeaf C g b] (List.map (fun cs => LLeaf cs g b) css)) = [LLeaf (fold_left (fun acc cs => fold_left add_column cs acc) css C) g b].
Proof.
  induction css as [|cs css IH]; intros C; [reflexivity|]. cbn [List.map put_all put merge]. rewrite !same_refl. cbn [andb].
  specialize (IH (fold_left add_column cs C)). cbn [fold_left]. destruct (put_all _ _) as [us l]. cbn [fst] in *. exact IH.
Qed.
Lemma one_table_leaf g b cs css : one_table (List.map (fun cs => LLeaf cs g b) (cs :: css)) = Some (LLeaf (fold_left (fun acc cs => fold_left add_column cs acc) css cs) g b).
Proof.
  unfold one_table. cbn [List.map put_all put]. pose proof (put_all_leaf g b css cs) as H. destruct (put_all [LLeaf cs g b] _) as [us l]. cbn [fst] in *. now subst us.
Qed.
Lemma folds_spec {A} css : forall (C : list (string * A)), NoDup (List.map fst C) ->
  let C' := fold_left (fun acc cs => fold_left add_column cs acc) css C in
  NoDup (List.map fst C') /\ incl C C' /\ forall cs c, In cs css -> In c cs -> exists a, In (a, snd c) C'.
Proof.
  induction css as [|cs css IH]; intros C HN; cbn [fold_left]; [repeat split; auto using incl_refl; intros cs c []|]. cbv zeta in *.
  destruct (add_columns_spec cs C HN) as (H1 & H2 & H3). destruct (IH _ H1) as (H4 & H5 & H6). split; [exact H4|]. split; [eapply incl_tran; eauto|].
  intros cs' c [<-|Hcs] Hc; [|eauto]. destruct (H3 c Hc) as [a Ha]. exists a. now apply H5.
Qed.
Lemma all_some_map {A B} (f : A -> option B) g l : (forall a, In a l -> f a = Some (g a)) -> all_some (List.map f l) = Some (List.map g l).
Proof. induction l as [|a l IH]; intros H; [reflexivity|]. cbn [List.map all_some]. rewrite H by now left. rewrite IH; [reflexivity|]. intros; apply H; now right. Qed.

Lemma paths_child n w cs c acc p : In c cs -> In p (paths (acc ++ w) c) -> In p (paths acc (FNode n w cs)).
Proof. intros Hc Hp. cbn [paths]. destruct cs as [|c0 cs]; [destruct Hc|]. apply in_flat_map. eauto. Qed.

Section Raw.
  Variables (x : mhl_op) (s : list string).
  Hypothesis Hsup : supported_mhl x s.
  Notation I := (mhl_by x s).
  Notation glob := (get_global_filter (mhl_filter_tree x)).
  Definition leaf_of (m : otree) : metric := match m with OLeaf l _ => l | _ => MLeaf (Lf (M_Leaf.LSum (M_Leaf.Col ""))) [] end.
  Definition expr_of (r : mh_ratio) (m : otree) : sexpr := sql_column glob (mhl_local x r) (leaf_of m).
  Definition inner_cols (r : mh_ratio) : list (string * sexpr) := add_column [(value_name (r_numer r), expr_of r (r_numer r))] (value_name (r_denom r), expr_of r (r_denom r)).
  Lemma child_leaf r m : is_leaf m -> mhl_child_sql x s r m = SqlLeaf (Query (expr_of r m) glob I) (value_name m).
  Proof. destruct m; cbn [is_leaf]; intros H; try contradiction. reflexivity. Qed.
  Lemma ratio_leaves r : In r (l_ratios x) -> is_leaf (r_numer r) /\ is_leaf (r_denom r). Proof. intros H. destruct Hsup as (_ & _ & _ & H' & _). destruct (H' r H) as (H1 & H2 & _). auto. Qed.
  Lemma inner_one r : In r (l_ratios x) -> one_table [table_of (mhl_child_sql x s r (r_numer r)); table_of (mhl_child_sql x s r (r_denom r))] = Some (LLeaf (inner_cols r) glob I).
  Proof.
    intros H. destruct (ratio_leaves r H) as [H1 H2]. rewrite !child_leaf by assumption. cbn [table_of q_col q_where q_by].
    exact (one_table_leaf glob I [(value_name (r_numer r), expr_of r (r_numer r))] [[(value_name (r_denom r), expr_of r (r_denom r))]]).
  Qed.
  (** The table. *)
  Lemma raw_exists : exists cols, mhl_raw x s = Some (LLeaf cols glob I) /\ NoDup (List.map fst cols) /\
    forall r m, In r (l_ratios x) -> m = r_numer r \/ m = r_denom r -> exists a, In (a, expr_of r m) cols.
  Proof.
    unfold mhl_raw. rewrite (all_some_map _ (fun r => LLeaf (inner_cols r) glob I)) by apply inner_one.
    destruct Hsup as (_ & _ & Hne & _). clear Hsup. destruct (l_ratios x) as [|r0 rs]; [congruence|].
    rewrite <- (map_map inner_cols (fun cs => LLeaf cs glob I)). change (List.map inner_cols (r0 :: rs)) with (inner_cols r0 :: List.map inner_cols rs). rewrite (one_table_leaf glob I (inner_cols r0) (List.map inner_cols rs)). eexists. split; [reflexivity|].
    assert (forall r, NoDup (List.map fst (inner_cols r)) /\ forall m, m = r_numer r \/ m = r_denom r -> exists a, In (a, expr_of r m) (inner_cols r)) as HI.
    { intros r. unfold inner_cols. destruct (add_column_spec [(value_name (r_numer r), expr_of r (r_numer r))] (value_name (r_denom r), expr_of r (r_denom r))) as (H1 & H2 & H3).
      - cbn. constructor; [intros []|constructor].
      - split; [exact H1|]. intros m [->| ->]; [|exact H3]. eexists. apply H2. now left. }
    destruct (folds_spec (List.map inner_cols rs) (inner_cols r0) (proj1 (HI r0))) as (F1 & F2 & F3). split; [exact F1|].
    intros r m Hr Hm. destruct (proj2 (HI r) m Hm) as [a Ha]. destruct Hr as [<-|Hr]; [exists a; now apply F2|].
    exact (F3 (inner_cols r) (a, expr_of r m) (in_map _ _ _ Hr) Ha).
  Qed.

  Section Data.
  Variables (parse : string -> cond) (srt : list okey -> list env -> list env) (psort : cum_how -> bool -> nat -> rframe -> rframe) (t : stable).
  Hypothesis Hdb : db_sorts srt.
  Hypothesis Hps : pandas_sorts psort.
  Hypothesis Hleaf : mhl_leaves_fit parse x s t.
  Notation df := (pandas_table t).
  Definition above (r : mh_ratio) : list string := l_where x ++ l_list_where x ++ r_where r.
  Lemma by_nodup : NoDup I.
  Proof.
    destruct Hsup as (_ & _ & Hne & H & _). destruct (l_ratios x) as [|r0 rs]; [congruence|]. destruct (H r0 (or_introl eq_refl)) as (L1 & _ & S1 & _). pose proof (nodup_index _ _ S1) as N. destruct (r_numer r0); try destruct L1. cbn [extra_idx] in N. now rewrite app_nil_r in N.
  Qed.

  Lemma raw_child r m : In r (l_ratios x) -> m = r_numer r \/ m = r_denom r ->
    exists F, op_compute parse psort m I (filter (pfilters parse (above r)) df) = Some F /\ inv parse srt t (mhl_child_sql x s r m) I (value_name m) F /\ (I = [] -> F <> []).
  Proof.
    intros Hr Hm. destruct Hsup as (_ & _ & _ & H & _). destruct (H r Hr) as (L1 & L2 & S1 & S2). clear H.
    assert (supported_tree I m /\ is_leaf m) as [Hs Hl] by (destruct Hm as [-> | ->]; auto).
    assert (extra_idx m = []) as Ee by (destruct m; try destruct Hl; reflexivity).
    assert (all_fit parse t glob m I (above r) (mhl_local x r)) as Hall by (intros b fs lc by' Hb; exact (Hleaf r m Hr Hm b fs lc by' Hb)).
    pose proof (nonempty_above parse t glob m _ _ _ Hall) as Hw.
    assert (~ In "" (l_where x) /\ ~ In "" (l_list_where x) /\ ~ In "" (r_where r)) as (W1 & W2 & W3) by (repeat split; intros Hi; apply Hw; unfold above; rewrite !in_app_iff; auto).
    pose proof (tree_step parse srt psort t Hdb Hps glob m I (above r) (mhl_local x r) Hall Hs) as HT. rewrite Ee, app_nil_r in HT. unfold mhl_child_sql. apply HT; clear HT.
    2:{ destruct m; try destruct Hl. exact Coq.Init.Logic.I. }
    assert (~ In "" (remove (add (add [] (l_where x)) []) glob)) as N1 by (intros Hi; apply remove_in in Hi as [Hi _]; revert Hi; apply add_nonempty, add_nonempty; intros []).
    assert (~ In "" (remove (add (add [] (l_list_where x)) (remove (add (add [] (l_where x)) []) glob)) glob)) as N2 by (intros Hi; apply remove_in in Hi as [Hi _]; revert Hi; apply add_nonempty, add_nonempty; intros []).
    split; [|split].
    - intros Hi. apply remove_in in Hi as [Hi _]. revert Hi. apply add_nonempty, add_nonempty. intros [].
    - intros row Hrow. unfold mhl_local. rewrite spass_step by assumption. rewrite spass_step by assumption. rewrite spass_step by (assumption || intros []). unfold above. rewrite !spass_app. cbn [spass]. change (spass parse [] row) with true. rewrite !andb_true_r.
      destruct (spass parse (l_where x) row), (spass parse (l_list_where x) row), (spass parse (r_where r) row); reflexivity.
    - intros p Hp. assert (In p (paths [] (mhl_filter_tree x))) as Hp'.
      { unfold mhl_filter_tree. eapply paths_child; [now left|]. eapply paths_child; [apply in_map, Hr|]. eapply paths_child with (c := ofilter_tree m); [destruct Hm as [-> | ->]; cbn; auto|].
        unfold above in Hp. cbn [app]. rewrite <- app_assoc. exact Hp. }
      intros f Hf. apply (global_in_paths _ _ _ f) in Hp'; auto. intros ->. now apply nonempty_global in Hf.
  Qed.
  Lemma children_frames r : In r (l_ratios x) -> exists a b, ratio_children parse psort x s df r = Some (List.map (fun k => (k, (lookup k a, lookup k b))) (nodup (list_eq_dec string_dec) (List.map fst a ++ List.map fst b))) /\
    inv parse srt t (mhl_child_sql x s r (r_numer r)) I (value_name (r_numer r)) a /\ inv parse srt t (mhl_child_sql x s r (r_denom r)) I (value_name (r_denom r)) b.
  Proof.
    intros Hr. destruct (raw_child r (r_numer r) Hr (or_introl eq_refl)) as (a & Ea & Ia & _). destruct (raw_child r (r_denom r) Hr (or_intror eq_refl)) as (b & Eb & Ib & _).
    exists a, b. split; [|auto]. unfold ratio_children. cbv zeta. rewrite !filter_pfilters_app. fold (above r). now rewrite Ea, Eb.
  Qed.

  Variable cols : list (string * sexpr).
  Hypothesis Hraw : mhl_raw x s = Some (LLeaf cols glob I).
  Hypothesis Hcols : NoDup (List.map fst cols).
  Hypothesis Hall : forall r m, In r (l_ratios x) -> m = r_numer r \/ m = r_denom r -> exists a, In (a, expr_of r m) cols.
  Notation raw := (LLeaf cols glob I).
  Notation Raw := (run_table parse srt raw t).
  Definition alias (r : mh_ratio) (m : otree) : string := alias_in raw (mhl_child_sql x s r m).
  Lemma alias_there r m : In r (l_ratios x) -> m = r_numer r \/ m = r_denom r -> In (alias r m, expr_of r m) cols /\ ~ In (alias r m) I.
  Proof.
    intros Hr Hm. assert (is_leaf m) as Hl by (destruct (ratio_leaves r Hr); destruct Hm as [-> | ->]; assumption). destruct (Hall r m Hr Hm) as [a0 Ha0].
    assert (In (alias r m, expr_of r m) cols) as Hi.
    { unfold alias. rewrite (child_leaf r m Hl). unfold alias_in. cbn [table_of q_col]. destruct (find _ cols) as [[a e]|] eqn:E.
      - apply find_some in E as [Hi E]. cbn [snd] in E. apply same_eq in E. subst e. exact Hi.
      - exfalso. apply (find_none _ _ E) in Ha0. cbn [snd] in Ha0. now rewrite same_refl in Ha0. }
    split; [exact Hi|]. destruct Hsup as (_ & _ & _ & _ & HN & _). apply (HN raw); [exact Hraw|]. cbn [lcolumns]. exact (in_map fst _ _ Hi).
  Qed.
  Lemma raw_column r m F : In r (l_ratios x) -> m = r_numer r \/ m = r_denom r -> inv parse srt t (mhl_child_sql x s r m) I (value_name m) F ->
    column_of (fun w : row => List.map (fun c => label (w c)) I) Raw (fun w => fetch (number (w (alias r m)))) F.
  Proof.
    intros Hr Hm (Hsh & _ & HP & Hfin & _). destruct (alias_there r m Hr Hm) as [Hi Hn]. assert (is_leaf m) as Hl by (destruct (ratio_leaves r Hr); destruct Hm as [-> | ->]; assumption).
    rewrite (child_leaf r m Hl) in HP. assert (obs I (alias r m) Raw = obs I (value_name m) (run_sql parse srt (SqlLeaf (Query (expr_of r m) glob I) (value_name m)) t)) as E.
    { rewrite (leaf_rows_many parse srt t I by_nodup cols glob (alias r m) (expr_of r m) Hcols Hi Hn). symmetry. apply leaf_rows; [exact by_nodup|]. destruct Hsh as (_ & Hv & _). exact Hv. }
    rewrite <- E in HP. unfold column_of. apply (Permutation_map (fun kv => (fst kv, fetch (snd kv)))) in HP. unfold obs in HP. rewrite !map_map in HP. cbn [fst snd] in HP. etransitivity; [exact HP|].
    rewrite (map_ext_in _ encs); [apply Permutation_refl|]. intros kv Hkv. unfold enc, encs. cbn [fst snd]. f_equal. rewrite Forall_forall in Hfin. now apply fetch_unf, Hfin.
  Qed.
  Lemma raw_nodup : NoDup (List.map (fun w : row => List.map (fun c => label (w c)) I) Raw).
  Proof.
    destruct Hsup as (_ & _ & Hne & _). assert (exists r0, In r0 (l_ratios x)) as [r0 Hr] by (clear - Hne; destruct (l_ratios x) as [|r0 rs]; [congruence|]; exists r0; now left).
    destruct (raw_child r0 (r_numer r0) Hr (or_introl eq_refl)) as (F & _ & HF & _). pose proof (raw_column r0 _ F Hr (or_introl eq_refl) HF) as HC. destruct HF as (_ & _ & _ & _ & HN & _).
    apply (Permutation_map fst) in HC. rewrite !map_map in HC. cbn [fst encs] in HC. apply (Permutation_NoDup (Permutation_sym HC)). rewrite <- map_map. apply FinFun.Injective_map_NoDup; [intros u v E; now apply some_inj in E|exact HN].
  Qed.
  End Data.
End Raw.
