(** Arithmetic on queries: the form of a generated query, its rows, and merged columns. *)
From Coq Require Import Reals List Bool String Arith Permutation Sorted Lia Lra.
From Verif Require Import M_Num M_Frame L_Frame M_Ops S_Ops L_OpsA L_OpsB L_OpsC M_SqlGlobal L_SqlGlobal M_SqlLeaf S_SqlLeaf L_SqlLeaf L_SqlLeaf2 M_SqlOps S_SqlOps L_SqlOps L_SqlOps2 L_SqlOps3 L_SqlOps4 L_SqlOps5 L_SqlOps6.
Import ListNotations.
Open Scope string_scope.
Open Scope list_scope.

(** ** Arithmetic *)
Definition opS (op : op2) : option R -> option R -> option R :=
  match op with OpAdd => lift2 Rplus | OpSub => lift2 Rminus | OpMul => lift2 Rmult | OpDiv => vdiv end.
Lemma value_vop all pre e op x y : value all pre e (vop op x y) = opS op (value all pre e x) (value all pre e y).
Proof. now destruct op. Qed.
Lemma sexpr_op parse op a b rows : sexpr_value parse (sql_op op a b) rows = opS op (sexpr_value parse a rows) (sexpr_value parse b rows).
Proof. now destruct op. Qed.
Lemma op_fetch op a b : (op = OpDiv -> b = Some 0%R -> a = None \/ a = Some 0%R) -> fetch (opS op a b) = num_op op (fetch a) (fetch b).
Proof. intros H. destruct op; cbn [opS num_op]; [apply add_fetch|apply sub_fetch|apply mul_fetch|apply div_fetch; auto]. Qed.
Lemma op_agree op x y : no_inf x -> no_inf y -> (op = OpDiv -> y = Fin 0 -> x = Fin 0 \/ x = NaN) ->
  unf (num_op op x y) = opS op (unf x) (unf y) /\ no_inf (num_op op x y).
Proof.
  intros Hx Hy H. rewrite <- (fetch_unf x Hx), <- (fetch_unf y Hy), !unf_fetch. rewrite <- op_fetch.
  - rewrite unf_fetch. split; [reflexivity|apply no_inf_fetch].
  - intros E Ey. specialize (H E). rewrite <- (fetch_unf y Hy), Ey in H. destruct (H eq_refl) as [E'|E']; rewrite E'; auto.
Qed.
Lemma aggregate_vop op x y : aggregate (vop op x y) = aggregate x || aggregate y. Proof. now destruct op. Qed.
Lemma orders_vop op x y : orders (vop op x y) = orders x ++ orders y. Proof. now destruct op. Qed.
Lemma vrefs_vop op x y : vrefs (vop op x y) = vrefs x ++ vrefs y. Proof. now destruct op. Qed.

(** ** The form of a generated query *)
Definition array_source (s : src) : bool :=
  match s with
  | From (SqlSel cols _ _ _) => existsb (fun c => match snd c with TopArray _ _ => true | _ => false end) cols
  | Full _ _ _ _ _ => true
  | _ => false
  end.
(** [run]: the value may be a running sum *)
Inductive form (idx : list string) (v : string) (run : bool) : sqlq -> Prop :=
  | form_leaf l : q_by l = idx -> form idx v run (SqlLeaf l v)
  | form_sel x from w : aggregate x = false -> (run = false -> orders x = []) -> (idx = [] -> array_source from = true) -> form idx v run (sel1 idx v x from w)
  | form_group x from w : (idx = [] -> aggregate x = true /\ array_source from = false) -> form idx v run (SqlSel [(v, Expr x)] from w idx).
Lemma form_shape idx v run q : NoDup idx -> ~ In v idx -> form idx v run q -> shape q idx v.
Proof.
  intros Hd Hv H. destruct H as [l E|x from w|x from w].
  - split; [exact Hd|]. split; [exact Hv|]. left. split; [exact E|reflexivity].
  - now apply shape_sel1.
  - split; [exact Hd|]. split; [exact Hv|]. left. split; reflexivity.
Qed.

(** ** Rows of each form *)
Section Rows.
  Variables (parse : string -> cond) (srt : list okey -> list env -> list env) (t : stable).
  Variables (idx : list string) (v : string).
  Hypothesis Hd : NoDup idx.
  Hypothesis Hv : ~ In v idx.

  Definition leaf_groups (wh : list string) : list skey :=
    match idx with [] => [[]] | _ => nodup skey_dec (List.map (srow_key idx) (filter (spass parse wh) t)) end.
  Lemma leaf_groups_len wh k : In k (leaf_groups wh) -> List.length k = List.length idx.
  Proof.
    unfold leaf_groups. destruct idx as [|c l]; [intros [<-|[]]; reflexivity|]. intros H. apply nodup_In, in_map_iff in H as (r & <- & _). unfold srow_key. now rewrite map_length.
  Qed.
  Lemma leaf_rows col wh : obs idx v (run_sql parse srt (SqlLeaf (Query col wh idx) v) t) =
    List.map (fun k => (k, sexpr_value parse col (M_SqlLeaf.group idx k (filter (spass parse wh) t)))) (leaf_groups wh).
  Proof.
    cbn [run_sql]. unfold run_query. cbn [q_by q_where q_col]. fold (leaf_groups wh). unfold obs. rewrite !map_map. apply map_ext_in. intros k Hk. cbn [fst snd]. apply leaf_groups_len in Hk.
    f_equal.
    - etransitivity; [|apply (map_assoc_combine idx _ Hd Hk)]. apply map_ext_in. intros c Hc.
      assert (exists l, assoc c (combine idx k) = Some l) as [l ->]; [|apply label_of_label].
      revert k Hk Hc. clear. induction idx as [|b bs IH]; intros [|x sk] Hl Hc; try discriminate; [destruct Hc|]. cbn [combine assoc].
      destruct (String.eqb b c) eqn:E; [eauto|]. apply IH; [now injection Hl|]. destruct Hc as [->|Hc]; [rewrite String.eqb_refl in E; discriminate|exact Hc].
    - assert (assoc v (combine idx k) = None) as ->.
      { revert Hv k Hk. clear. induction idx as [|b bs IH]; intros H [|x sk] Hk; auto; try discriminate. cbn [combine assoc].
        destruct (String.eqb b v) eqn:E; [apply String.eqb_eq in E; subst; exfalso; apply H; now left|]. apply IH; [|now injection Hk]. intros Hi. apply H. now right. }
      rewrite String.eqb_refl. apply number_of_number.
  Qed.

  Section Group.
    Variables (from : src) (w : option wx).
    Let envs := filter (where_pass w) (run_src parse srt from t).
    Definition groups : list skey := match idx with [] => [[]] | _ => nodup skey_dec (List.map (key_of idx) (filter (where_pass w) (run_src parse srt from t))) end.
    Definition members (k : skey) : list env := filter (fun e => if skey_dec (key_of idx e) k then true else false) (filter (where_pass w) (run_src parse srt from t)).
    Definition group_env (k : skey) : env := fun c => match c with Plain c => of_label (match assoc c (combine idx k) with Some l => l | None => None end) | Of _ _ => Null end.
    Lemma groups_len k : In k groups -> List.length k = List.length idx.
    Proof.
      unfold groups. destruct idx as [|c l]; [intros [<-|[]]; reflexivity|]. intros H. apply nodup_In, in_map_iff in H as (r & <- & _). unfold key_of. now rewrite map_length.
    Qed.
    Lemma grouped_rows x : (idx = [] -> aggregate x = true) ->
      obs idx v (run_sql parse srt (SqlSel [(v, Expr x)] from w idx) t) = List.map (fun k => (k, value (members k) (members k) (group_env k) x)) groups.
    Proof.
      intros Ha.
      assert (run_sql parse srt (SqlSel [(v, Expr x)] from w idx) t = select_group [(v, Expr x)] idx envs) as ->.
      { rewrite run_sql_sel. cbn zeta. fold envs. destruct idx as [|c l]; [|reflexivity]. cbn [existsb snd aggregate_col]. now rewrite Ha. }
      unfold select_group. fold groups. unfold obs. rewrite map_map. apply map_ext_in. intros k Hk. apply groups_len in Hk. f_equal.
      - etransitivity; [|apply (map_assoc_combine idx k Hd Hk)]. apply map_ext_in. intros c Hc. apply mem_in in Hc. rewrite Hc. apply label_of_label.
      - pose proof (proj2 (mem_false v idx) Hv) as E. rewrite E. rewrite assoc_here. cbn [column_cell]. rewrite number_of_number. reflexivity.
    Qed.
  End Group.
End Rows.

(** a value without running sums does not depend on the rows before *)
Lemma value_no_pre x : orders x = [] -> forall all pre pre' e, value all pre e x = value all pre' e x.
Proof.
  induction x as [c|r|a IHa b IHb|a IHa b IHb|a IHa b IHb|a IHa b IHb|a IHa|a IHa|a IHa|c p|c p o|a IHa|c s|c]; cbn [orders value]; intros H all pre pre' e; try reflexivity;
  try (apply app_eq_nil in H as [H1 H2]; rewrite (IHa H1 all pre pre' e), (IHb H2 all pre pre' e); reflexivity);
  try (rewrite (IHa H all pre pre' e); reflexivity).
  - discriminate.
  - f_equal. apply map_ext. intros r. now apply IHa.
Qed.
Lemma same_eq {A} (a b : A) : same a b = true -> a = b.
Proof. unfold same. destruct (ClassicalDedekindReals.sig_not_dec (a = b)) as [H|H]; [intros _|discriminate]. now apply Classical_Prop.NNPP. Qed.
Lemma same_refl {A} (a : A) : same a a = true.
Proof. unfold same. destruct (ClassicalDedekindReals.sig_not_dec (a = a)) as [H|H]; [reflexivity|]. now destruct H. Qed.

(** ** Numbers on keys *)
Lemma in_enc k x (F : rframe) : In (List.map Some k, x) (List.map enc F) -> exists y, In (k, y) F /\ x = unf y.
Proof. intros H. apply in_map_iff in H as ([k' y] & E & H). unfold enc in E. cbn in E. assert (k' = k) as -> by (apply some_inj; congruence). exists y. split; [exact H|congruence]. Qed.
Lemma lookup_no_inf (F : rframe) k : Forall (fun r => no_inf (snd r)) F -> no_inf (lookup k F).
Proof.
  intros H. destruct (in_dec (list_eq_dec string_dec) k (List.map fst F)) as [Y|N]; [|rewrite lookup_None by exact N; split; discriminate].
  apply lookup_here in Y. rewrite Forall_forall in H. apply (H _ Y).
Qed.
Lemma sort_uniq_keys (a b : list key) : NoDup a -> NoDup b -> Permutation (sort_uniq (a ++ b)) (a ++ filter (fun k => if in_dec (list_eq_dec string_dec) k a then false else true) b).
Proof.
  intros Ha Hb. apply NoDup_Permutation.
  - apply ksorted_NoDup, sort_uniq_sorted.
  - apply NoDup_app_disjoint; [exact Ha|now apply NoDup_filter|]. intros x Hx Hi. apply filter_In in Hi as [_ Hi]. destruct (in_dec _ x a); [discriminate|contradiction].
  - intros x. rewrite sort_uniq_In, !in_app_iff, filter_In. destruct (in_dec (list_eq_dec string_dec) x a); intuition discriminate.
Qed.
Lemma enc_keys L (F : rframe) : Permutation L (List.map enc F) -> Permutation (List.map fst L) (List.map (fun k => List.map Some k) (List.map fst F)).
Proof. intros H. apply (Permutation_map fst) in H. rewrite H. rewrite !map_map. apply Permutation_refl. Qed.
(** both columns on the same rows *)
Lemma zip_rows {X} (L : list X) (K : X -> skey) (V0 V1 : X -> option R) op (F0 F1 : rframe) :
  Permutation (List.map (fun x => (K x, V0 x)) L) (List.map enc F0) -> Permutation (List.map (fun x => (K x, V1 x)) L) (List.map enc F1) ->
  NoDup (List.map fst F0) -> NoDup (List.map fst F1) -> Forall (fun r => no_inf (snd r)) F0 -> Forall (fun r => no_inf (snd r)) F1 ->
  (op = OpDiv -> forall k, In k (List.map fst F0) -> lookup k F1 = Fin 0 -> lookup k F0 = Fin 0 \/ lookup k F0 = NaN) ->
  Permutation (List.map (fun x => (K x, opS op (V0 x) (V1 x))) L) (List.map enc (align op F0 F1)) /\
  Permutation (List.map fst (align op F0 F1)) (List.map fst F0) /\ Forall (fun r => no_inf (snd r)) (align op F0 F1).
Proof.
  intros P0 P1 D0 D1 N0 N1 Hdiv.
  assert (forall k, In k (List.map fst F0) <-> In k (List.map fst F1)) as HK.
  { pose proof (enc_keys _ _ P0) as E0. pose proof (enc_keys _ _ P1) as E1. rewrite !map_map in E0, E1. cbn [fst] in E0, E1. rewrite E0 in E1. intros k.
    assert (forall F : rframe, In k (List.map fst F) <-> In (List.map Some k) (List.map (fun r : list string * num => List.map Some (fst r)) F)) as HM.
    { intros F. rewrite <- (map_map fst (fun k => List.map (@Some string) k)). split; [apply in_map|]. intros H. apply in_map_iff in H as (k' & E & H). apply some_inj in E. now subst. }
    rewrite !HM. split; apply Permutation_in; [exact E1|now apply Permutation_sym]. }
  assert (Permutation (sort_uniq (List.map fst F0 ++ List.map fst F1)) (List.map fst F0)) as HS.
  { rewrite sort_uniq_keys by assumption. replace (filter _ (List.map fst F1)) with (@nil key); [now rewrite app_nil_r|]. symmetry. apply filter_none.
    intros k Hk. apply HK in Hk. now destruct (in_dec _ k (List.map fst F0)). }
  split; [|split].
  - assert (forall x, In x L -> exists k, K x = List.map Some k /\ In k (List.map fst F0) /\ V0 x = unf (lookup k F0) /\ V1 x = unf (lookup k F1)) as HX.
    { intros x Hx. pose proof (in_map (fun x => (K x, V0 x)) _ _ Hx) as H0. apply (Permutation_in _ P0) in H0. apply in_map_iff in H0 as ([k y] & E & H0). unfold enc in E. cbn in E.
      injection E as Ek Ey. exists k. split; [auto|]. split; [exact (in_map fst _ _ H0)|]. rewrite (lookup_In k y F0 D0 H0). split; [auto|].
      pose proof (in_map (fun x => (K x, V1 x)) _ _ Hx) as H1. apply (Permutation_in _ P1) in H1. cbn beta in H1. rewrite <- Ek in H1. apply in_enc in H1 as (z & Hz & ->). now rewrite (lookup_In k z F1 D1 Hz). }
    set (g := fun K0 : skey => (K0, match find (fun kv => if skey_dec (List.map Some (fst kv)) K0 then true else false) (align op F0 F1) with Some kv => unf (snd kv) | None => None end)).
    assert (forall k, In k (List.map fst F0) -> g (List.map Some k) = (List.map Some k, opS op (unf (lookup k F0)) (unf (lookup k F1)))) as Hg.
    { intros k Hk. unfold g. f_equal. 
      assert (In k (sort_uniq (List.map fst F0 ++ List.map fst F1))) as Hs by (apply sort_uniq_In, in_or_app; auto).
      assert (forall l, In k l -> find (fun kv : list string * num => if skey_dec (List.map Some (fst kv)) (List.map Some k) then true else false)
                (List.map (fun k0 => (k0, num_op op (lookup k0 F0) (lookup k0 F1))) l) = Some (k, num_op op (lookup k F0) (lookup k F1))) as HF.
      { induction l as [|k' l IH]; [intros []|]. cbn [List.map find fst]. destruct (skey_dec _ _) as [E|N]; [apply some_inj in E; now subst|]. intros [->|Hi]; [now destruct N|auto]. }
      unfold align. rewrite (HF _ Hs). cbn [snd]. apply op_agree; auto using lookup_no_inf. }
    transitivity (List.map g (List.map K L)).
    + rewrite map_map. erewrite map_ext_in; [apply Permutation_refl|]. intros x Hx. cbn beta. destruct (HX x Hx) as (k & -> & Hk & -> & ->). now rewrite Hg.
    + apply (Permutation_map fst) in P0. rewrite !map_map in P0. cbn [fst] in P0. rewrite P0. unfold align at 1. rewrite !map_map.
      transitivity (List.map (fun k => g (List.map Some k)) (List.map fst F0)); [rewrite map_map; apply Permutation_refl|]. etransitivity; [apply Permutation_map, Permutation_sym, HS|].
      erewrite map_ext_in; [apply Permutation_refl|]. intros k Hk. cbn beta. apply (Permutation_in _ HS) in Hk. rewrite (Hg k Hk). unfold enc. cbn [fst snd]. f_equal.
      symmetry. apply op_agree; auto using lookup_no_inf.
  - unfold align. rewrite map_fst_pair. exact HS.
  - apply Forall_forall. intros r Hr. unfold align in Hr. apply in_map_iff in Hr as (k & <- & Hk). apply (Permutation_in _ HS) in Hk. cbn [snd]. apply op_agree; auto using lookup_no_inf.
Qed.
