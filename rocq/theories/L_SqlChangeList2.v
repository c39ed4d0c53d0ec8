(** Every result column is the change of that metric alone. *)
From Coq Require Import Reals List Bool String Arith Permutation Lia Lra.
From Verif Require Import M_Num M_Frame L_Frame M_Ops S_Ops L_OpsA L_OpsB M_SqlGlobal S_SqlGlobal L_SqlGlobal M_SqlLeaf S_SqlLeaf L_SqlLeaf L_SqlLeaf2 M_SqlOps S_SqlOps L_SqlOps L_SqlOps2 L_SqlOps7 L_SqlBin L_SqlScope M_SqlList S_SqlList L_SqlList M_OpList S_OpList L_OpList6 M_SqlMHList S_SqlMHList L_SqlMHList1 L_SqlMHList2 M_SqlChangeList S_SqlChangeList L_SqlOps5 L_SqlChangeList1.
Import ListNotations.
Open Scope string_scope.
Open Scope list_scope.

Lemma last_values_all {A} (idx l vs : list A) : vs <> [] -> last_values (List.length (idx ++ vs)) (List.length idx) (l ++ vs) = vs.
Proof.
  intros H. assert (0 < List.length vs)%nat by (destruct vs; [congruence|cbn; lia]). unfold last_values. rewrite !app_length. rewrite (proj2 (Nat.ltb_lt _ _)) by lia.
  replace (List.length l + List.length vs - (List.length idx + List.length vs - List.length idx))%nat with (List.length l) by lia. now apply skipn_app_len.
Qed.
Lemma combine_same {A} (l : list A) : combine l l = List.map (fun a => (a, a)) l.
Proof. induction l; cbn; congruence. Qed.
Lemma value_change p a b e : value [] [] e (change_expr p a b) = chg p (number (e (Of "ChangeRaw" a))) (number (e (Of "ChangeBase" b))).
Proof. destruct p; reflexivity. Qed.

Section Rows.
  Variables (x : chl_op) (s : list string).
  Hypothesis Hsup : supported_chl x s.
  Notation I := (chl_index x s).
  Notation glob := (get_global_filter (chl_filter_tree x)).
  Notation raw := (LLeaf (raw_cols x) glob I).
  Notation vn := value_name.
  Notation N := (List.map vn (h_metrics x)).
  Notation n := (List.length s).
  Notation nc := (List.length (h_cond x)).

  Lemma names_raw : lcolumns raw = N. Proof. cbn [lcolumns]. unfold raw_cols. rewrite map_map. reflexivity. Qed.
  Lemma all_nodup : NoDup (I ++ N).
  Proof.
    pose proof (index_nodup x s Hsup) as H1. assert (NoDup N) as H2 by apply Hsup.
    assert (forall c, In c N -> ~ In c I) as H3 by (intros c Hc; apply in_map_iff in Hc as (m & <- & Hm); now apply name_free).
    revert H1 H2 H3. generalize N. induction I as [|c l IH]; intros v H1 H2 H3; cbn [app]; [exact H2|]. inversion H1; subst. constructor.
    - rewrite in_app_iff. intros [H|H]; [auto|]. apply (H3 c H). now left.
    - apply IH; auto. intros d Hd Hi. apply (H3 d Hd). now right.
  Qed.
  Lemma base_columns_are : chl_base_columns x raw = s ++ N.
  Proof.
    unfold chl_base_columns. rewrite names_raw. cbn [lgroupby]. pose proof all_nodup as H. rewrite add_cols_app by exact H. unfold chl_index in *. rewrite <- app_assoc in *. now apply difference_split.
  Qed.
  Lemma all_columns_are : lall_columns raw = I ++ N.
  Proof.
    unfold lall_columns. rewrite names_raw. cbn [lgroupby]. f_equal. apply filter_all. intros c Hc. apply negb_true_iff, mem_false. apply in_map_iff in Hc as (m & <- & Hm). now apply name_free.
  Qed.
  Lemma columns_are : chl_columns x s raw = List.map (fun m => (chl_name x (vn m), change_expr (h_percent x) (vn m) (vn m))) (h_metrics x).
  Proof.
    unfold chl_columns. rewrite base_columns_are, all_columns_are. cbv zeta. pose proof Hsup as (_ & _ & Hne & _ & HN & _).
    assert (N <> []) as Hne' by (destruct (h_metrics x); [congruence|discriminate]). rewrite !last_values_all by exact Hne'. rewrite combine_same, !map_map. cbn [fst snd].
    rewrite add_columns_all; [reflexivity| |]; cbn [app].
    - rewrite map_map. cbn [fst]. rewrite <- (map_map vn (chl_name x)). apply FinFun.Injective_map_NoDup; [|exact HN]. intros a b E. now apply append_inj_r in E.
    - apply nodup_pairs in HN. revert HN. apply pairs_map. intros m m' _ _ Hv E. apply Hv. cbn [snd] in E. unfold change_expr in E. destruct (h_percent x); injection E as E _; exact E.
  Qed.
  Lemma using_is : difference I (h_cond x) = s.
  Proof. pose proof (index_nodup x s Hsup) as H. unfold chl_index in *. rewrite <- (app_nil_r (h_cond x)) in H. rewrite <- (app_nil_r (h_cond x)) at 1. rewrite difference_split by exact H. apply app_nil_r. Qed.

  Section Data.
  Variables (parse : string -> cond) (srt : list okey -> list env -> list env) (psort : cum_how -> bool -> nat -> rframe -> rframe) (t : stable).
  Hypothesis Hdb : db_sorts srt.
  Hypothesis Hps : pandas_sorts psort.
  Hypothesis Hleaf : chl_leaves_fit parse x s t.
  Hypothesis Hfits : chl_fits parse psort x s (pandas_table t).
  Notation Raw := (run_table parse srt raw t).
  Notation child := (child_of parse psort (change_of x) (h_where x) (h_list_where x) s (pandas_table t)).
  Notation labels r := (List.map (fun c => label (r c)) I).
  Definition base_where := Some (WEq (combine (h_cond x) (h_base x))).
  Definition not_base := if h_include x then None else Some (WNot (combine (h_cond x) (h_base x))).
  Definition Base : list row := List.map (fun r => fun c => if mem c (s ++ N) then r c else Null) (filter (fun r => where_pass base_where (plain_env r)) Raw).
  Definition Joined : list env := flat_map (fun r1 => List.map (join_env "ChangeRaw" r1 "ChangeBase") (filter (match_using s r1) Base)) Raw.
  Definition cols := List.map (fun m => (chl_name x (vn m), change_expr (h_percent x) (vn m) (vn m))) (h_metrics x).
  Definition Rows : list row := List.map (fun e : env => fun c => if mem c I then e (Plain c) else match assoc c cols with Some v => of_number (value [] [] e v) | None => Null end) (filter (where_pass not_base) Joined).
  Lemma sql_is : chl_sql parse srt x s t = Some (List.map (fun m => chl_name x (vn m)) (h_metrics x), Rows).
  Proof. unfold chl_sql. rewrite raw_is by exact Hsup. cbv zeta. rewrite base_columns_are, columns_are, using_is. rewrite map_map. reflexivity. Qed.

  Lemma row_labels m r : In m (h_metrics x) -> In r Raw -> exists k, labels r = List.map Some k.
  Proof.
    intros Hm Hr. destruct (child_inv x s Hsup parse srt psort t Hdb Hps Hleaf m Hm) as (F & _ & (_ & _ & HP & _) & _).
    rewrite <- (own_column x s Hsup parse srt t m Hm) in HP. apply (in_map (fun r : row => (List.map (fun c => label (r c)) I, number (r (vn m))))) in Hr. fold (obs I (vn m) Raw) in Hr. apply (Permutation_in _ HP) in Hr. apply in_map_iff in Hr as ([k v] & E & _). unfold enc in E. cbn [fst snd] in E.
    exists k. exact (eq_sym (f_equal fst E)).
  Qed.
  Lemma labels_split r : List.map (fun c => label (r c)) (h_cond x) = scond n nc (labels r) /\ List.map (fun c => label (r c)) s = sdrop n nc (labels r).
  Proof. pose proof (labels_cond s (h_cond x) [] r) as H1. pose proof (labels_us s (h_cond x) [] r) as H2. rewrite !app_nil_r in H1. rewrite !app_nil_r in H2. split; [exact H1|exact H2]. Qed.
  Lemma where_base m r : In m (h_metrics x) -> In r Raw -> fold_right (fun p acc => and3 (equals (plain_env r) p) acc) (Some true) (combine (h_cond x) (h_base x)) = Some (isb n nc (h_base x) (labels r)).
  Proof.
    intros Hm Hr. destruct (row_labels m r Hm Hr) as [k Ek]. pose proof (labels_split r) as [Ec _]. rewrite Ek in *. rewrite isb_some. apply all_eq_some; [apply Hsup|]. rewrite key_of_plain, Ec. apply scond_some.
  Qed.
  Lemma base_obs m : In m (h_metrics x) -> obs s (vn m) Base = List.map (fun kv => (sdrop n nc (fst kv), snd kv)) (filter (fun kv => isb n nc (h_base x) (fst kv)) (obs I (vn m) Raw)).
  Proof.
    intros Hm. unfold Base. unfold obs. rewrite filter_map_comm, !map_map. cbn [fst snd].
    rewrite (filter_ext_in _ (fun r => isb n nc (h_base x) (labels r))).
    - apply map_ext. intros r. destruct (labels_split r) as [_ <-]. f_equal.
      + apply map_ext_in. intros c Hc. now rewrite (proj2 (mem_in c (s ++ N)) (in_or_app _ _ _ (or_introl Hc))).
      + rewrite (proj2 (mem_in (vn m) (s ++ N))); [reflexivity|]. apply in_or_app. right. now apply in_map.
    - intros r Hr. unfold base_where. cbn [where_pass]. rewrite (where_base m r Hm Hr). now destruct (isb n nc (h_base x) (labels r)).
  Qed.
  Lemma rows_obs m : In m (h_metrics x) -> obs I (chl_name x (vn m)) Rows = J (h_percent x) s (h_cond x) (h_base x) (h_include x) (obs I (vn m) Raw) (obs s (vn m) Base).
  Proof.
    intros Hm. assert (~ In (chl_name x (vn m)) I) as Hv by (destruct Hsup as (_ & _ & _ & H & _); now destruct (H m Hm) as (_ & _ & ?)).
    assert (assoc (chl_name x (vn m)) cols = Some (change_expr (h_percent x) (vn m) (vn m))) as Ha.
    { apply L_SqlList.assoc_In; [|unfold cols; apply in_map_iff; now exists m]. unfold cols. rewrite map_map. cbn [fst]. rewrite <- (map_map vn (chl_name x)). apply FinFun.Injective_map_NoDup; [|apply Hsup]. intros a b E. now apply append_inj_r in E. }
    set (f := fun e : env => (key_of I e, chg (h_percent x) (number (e (Of "ChangeRaw" (vn m)))) (number (e (Of "ChangeBase" (vn m)))))).
    transitivity (List.map f (filter (where_pass not_base) Joined)).
    { unfold obs, Rows. rewrite map_map. apply map_ext. intros e. unfold f. f_equal.
      - apply map_ext_in. intros c Hc. now rewrite (proj2 (mem_in c I) Hc).
      - rewrite (proj2 (mem_false _ I) Hv), Ha, number_of_number. apply value_change. }
    unfold Joined. rewrite map_filter_flat. unfold J. change (obs I (vn m) Raw) with (List.map (fun r : row => (labels r, number (r (vn m)))) Raw). rewrite flat_map_map. cbn [fst snd].
    apply flat_map_ext_in. intros r1 Hr1. rewrite filter_map_comm, map_map.
    assert (forall r2, where_pass not_base (join_env "ChangeRaw" r1 "ChangeBase" r2) = h_include x || negb (isb n nc (h_base x) (labels r1))) as HW.
    { intros r2. unfold not_base. destruct (h_include x); [reflexivity|]. cbn [where_pass orb].
      change (fold_right _ (Some true) (combine (h_cond x) (h_base x))) with (fold_right (fun p acc => and3 (equals (plain_env r1) p) acc) (Some true) (combine (h_cond x) (h_base x))).
      rewrite (where_base m r1 Hm Hr1). now destruct (isb n nc (h_base x) (labels r1)). }
    destruct (h_include x || negb _).
    - rewrite filter_all by (intros r2 _; apply HW). unfold obs. rewrite filter_map_comm, map_map. cbn [fst snd].
      rewrite (filter_ext (match_using s r1) (fun r2 => mk (sdrop n nc (labels r1)) (List.map (fun c => label (r2 c)) s))).
      + apply map_ext. intros r2. reflexivity.
      + intros r2. rewrite match_using_mk. now destruct (labels_split r1) as [_ ->].
    - rewrite filter_none by (intros r2 _; apply HW). reflexivity.
  Qed.

  Lemma metric_column m : In m (h_metrics x) -> exists F res, child m = Some F /\ capply psort (change_of x) n F = Some res /\
    Permutation (obs I (chl_name x (vn m)) Rows) (List.map enc res) /\ Forall (fun r => no_inf (snd r)) res /\ NoDup (List.map fst res).
  Proof.
    intros Hm. destruct (child_inv x s Hsup parse srt psort t Hdb Hps Hleaf m Hm) as (F & EF & HF & _). pose proof (Hfits m F Hm EF) as Hfit.
    assert (List.length (h_base x) = List.length (h_cond x)) as Hb by apply Hsup.
    assert (~ In (chl_name x (vn m)) I) as Hv by (destruct Hsup as (_ & _ & _ & H & _); now destruct (H m Hm) as (_ & _ & ?)).
    assert (s ++ h_cond x ++ [] = I) as EI by (now rewrite app_nil_r).
    pose proof (change_step parse srt t (h_percent x) s (h_cond x) (h_base x) [] (h_include x) (vn m) (chl_child_sql x s m) F Hb) as HS.
    pose proof (change_rows parse srt t (h_percent x) s (h_cond x) (h_base x) [] (h_include x) (vn m) (chl_child_sql x s m) F Hb) as HR.
    pose proof (base_rows parse srt t s (h_cond x) (h_base x) [] (vn m) (chl_child_sql x s m) F Hb) as HB.
    rewrite EI in HS, HR, HB. specialize (HS HF Hfit Hv). specialize (HR HF Hfit Hv). specialize (HB HF). destruct HS as (res & Er & (_ & _ & HP & Hfin & HN & _)).
    rewrite HR, HB in HP. rewrite <- (own_column x s Hsup parse srt t m Hm) in HP.
    exists F, res. split; [exact EF|]. split; [|split; [|auto]].
    - unfold change_of, capply. destruct (h_percent x); exact Er.
    - rewrite (rows_obs m Hm), (base_obs m Hm). exact HP.
  Qed.
  Lemma metric_shown m : In m (h_metrics x) -> exists res, op_compute parse psort (alone (change_of x) (h_where x) (h_list_where x) m) s (pandas_table t) = Some res /\
    column_of (fun w : row => labels w) Rows (fun w => fetch (number (w (chl_name x (vn m))))) res.
  Proof.
    intros Hm. destruct (metric_column m Hm) as (F & res & EF & Er & HP & Hfin & _). exists res. split; [rewrite alone_eq, EF; exact Er|].
    unfold column_of. apply (Permutation_map (fun kv => (fst kv, fetch (snd kv)))) in HP. unfold obs in HP. rewrite !map_map in HP. cbn [fst snd] in HP. etransitivity; [exact HP|].
    rewrite (map_ext_in _ encs); [apply Permutation_refl|]. intros kv Hkv. unfold enc, encs. cbn [fst snd]. f_equal. rewrite Forall_forall in Hfin. now apply fetch_unf, Hfin.
  Qed.
  End Data.
End Rows.
