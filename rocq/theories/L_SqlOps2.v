(** Comparison (PercentChange, AbsoluteChange) in SQL. *)
From Coq Require Import Reals List Bool String Arith Permutation Sorted Lia Lra.
From Verif Require Import M_Num M_Frame L_Frame M_Ops S_Ops L_OpsA L_OpsB L_OpsC M_SqlGlobal L_SqlGlobal M_SqlLeaf S_SqlLeaf L_SqlLeaf L_SqlLeaf2 M_SqlOps S_SqlOps L_SqlOps.
Import ListNotations.
Open Scope string_scope.
Open Scope list_scope.

(** ** Lists *)
Lemma map_filter_flat {A B C} (g : B -> C) (W : B -> bool) (h : A -> list B) l :
  List.map g (filter W (flat_map h l)) = flat_map (fun a => List.map g (filter W (h a))) l.
Proof. induction l as [|a l IH]; cbn; [reflexivity|]. now rewrite filter_app, map_app, IH. Qed.
Lemma flat_map_ext_in {A B} (f g : A -> list B) l : (forall a, In a l -> f a = g a) -> flat_map f l = flat_map g l.
Proof. induction l as [|a l IH]; cbn; intros H; [reflexivity|]. rewrite H, IH; auto. Qed.
Lemma flat_map_map {A B C} (f : A -> B) (g : B -> list C) l : flat_map g (List.map f l) = flat_map (fun a => g (f a)) l.
Proof. induction l as [|a l IH]; cbn; [reflexivity|]. now rewrite IH. Qed.
Lemma flat_map_perm {A B} (f : A -> list B) l l' : Permutation l l' -> Permutation (flat_map f l) (flat_map f l').
Proof.
  induction 1; cbn; auto.
  - now apply Permutation_app_head.
  - rewrite !app_assoc. apply Permutation_app_tail, Permutation_app_comm.
  - etransitivity; eauto.
Qed.
Lemma flat_map_perm_ext {A B} (f g : A -> list B) l : (forall a, Permutation (f a) (g a)) -> Permutation (flat_map f l) (flat_map g l).
Proof. intros H. induction l as [|a l IH]; cbn; [constructor|]. now apply Permutation_app. Qed.
Lemma filter_unique {V} p (F : list (list string * V)) k b : NoDup (List.map fst F) -> In (k, b) F ->
  (forall r, In r F -> (p r = true <-> fst r = k)) -> filter p F = [(k, b)].
Proof.
  induction F as [|r F IH]; cbn [List.map filter In]; intros Hd Hi Hp; [destruct Hi|]. inversion Hd; subst.
  destruct Hi as [->|Hi].
  - assert (p (k, b) = true) as -> by (apply Hp; auto). f_equal. apply filter_none. intros r Hr.
    destruct (p r) eqn:E; [|reflexivity]. apply Hp in E; [|auto]. exfalso. apply H1. cbn. rewrite <- E. now apply in_map.
  - destruct (p r) eqn:E.
    + apply Hp in E; [|auto]. exfalso. apply H1. rewrite E. apply (in_map fst F (k, b) Hi).
    + apply IH; auto.
Qed.

(** ** Keys of rows *)
Definition sdrop (n nc : nat) (K : skey) : skey := firstn n K ++ skipn (n + nc) K.
Definition scond (n nc : nat) (K : skey) : skey := firstn nc (skipn n K).
Lemma skipn_some n k : skipn n (List.map (@Some string) k) = List.map Some (skipn n k).
Proof. apply skipn_map. Qed.
Lemma sdrop_some n nc k : sdrop n nc (List.map Some k) = List.map Some (drop_cond n nc k).
Proof. unfold sdrop, drop_cond. now rewrite firstn_some, skipn_some, map_app. Qed.
Lemma scond_some n nc k : scond n nc (List.map Some k) = List.map Some (cond_of n nc k).
Proof. unfold scond, cond_of. now rewrite skipn_some, firstn_some. Qed.
Definition isb (n nc : nat) (base : list string) (K : skey) : bool := if skey_dec (scond n nc K) (List.map Some base) then true else false.
Lemma isb_some n nc base k : isb n nc base (List.map Some k) = key_eqb (cond_of n nc k) base.
Proof.
  unfold isb, key_eqb. rewrite scond_some. destruct (skey_dec _ _) as [E|E], (list_eq_dec _ _ _) as [E'|E']; auto.
  - apply some_inj in E. congruence.
  - subst. congruence.
Qed.
Lemma eqb_cons x a y b : String.eqb x y && key_eqb a b = key_eqb (x :: a) (y :: b).
Proof.
  destruct (key_eqb (x :: a) (y :: b)) eqn:E.
  - apply key_eqb_eq in E. injection E as -> ->. now rewrite String.eqb_refl, key_eqb_refl.
  - apply key_eqb_neq in E. destruct (String.eqb x y) eqn:E1, (key_eqb a b) eqn:E2; cbn; auto.
    apply String.eqb_eq in E1. apply key_eqb_eq in E2. congruence.
Qed.
(** JOIN ... USING compares labels *)
Definition mk (K K' : skey) : bool := forallb (fun p => match p with (Some a, Some b) => String.eqb a b | _ => false end) (combine K K').
Lemma match_using_mk us r1 r2 : match_using us r1 r2 = mk (List.map (fun c => label (r1 c)) us) (List.map (fun c => label (r2 c)) us).
Proof. unfold match_using, mk. induction us as [|c us IH]; cbn; [reflexivity|]. rewrite IH. reflexivity. Qed.
Lemma mk_some a : forall b, List.length a = List.length b -> mk (List.map Some a) (List.map Some b) = key_eqb a b.
Proof.
  induction a as [|x a IH]; intros [|y b] H; try discriminate; [reflexivity|]. unfold mk. cbn. fold (mk (List.map Some a) (List.map Some b)).
  rewrite IH by (cbn in H; lia). apply eqb_cons.
Qed.
(** WHERE c1 = "v1" AND ... *)
Lemma all_eq_some e cond : forall base c, List.length base = List.length cond -> key_of cond e = List.map Some c ->
  fold_right (fun p acc => and3 (equals e p) acc) (Some true) (combine cond base) = Some (key_eqb c base).
Proof.
  induction cond as [|x cond IH]; intros [|b base] [|y c] Hl He; try discriminate.
  - reflexivity.
  - cbn [combine fold_right]. injection He as E1 E2. rewrite (IH base c); [|cbn in Hl; lia|exact E2].
    unfold equals. cbn [fst snd]. rewrite E1. cbn.
    rewrite <- eqb_cons. now destruct (String.eqb y b), (key_eqb c base).
Qed.

Lemma NoDup_snoc {A} (l : list A) x : NoDup l -> ~ In x l -> NoDup (l ++ [x]).
Proof. intros H1 H2. apply NoDup_Add with (a := x) (l := l); [rewrite <- (app_nil_r l) at 1; apply Add_app|split; assumption]. Qed.
Lemma NoDup_tail {A} (a b : list A) : NoDup (a ++ b) -> NoDup b.
Proof. induction a; cbn; [auto|]. inversion 1; auto. Qed.
Lemma last_values_one {A} (idx l : list A) (v : A) : last_values (List.length (idx ++ [v])) (List.length idx) (l ++ [v]) = [v].
Proof.
  unfold last_values. rewrite !app_length. cbn [List.length]. rewrite (proj2 (Nat.ltb_lt _ _)) by lia. replace (List.length l + 1 - (List.length idx + 1 - List.length idx))%nat with (List.length l) by lia.
  now apply skipn_app_len.
Qed.
Lemma difference_split a cond b : NoDup (a ++ cond ++ b) -> difference (a ++ cond ++ b) cond = a ++ b.
Proof.
  intros H. unfold difference. rewrite !filter_app. rewrite (filter_out cond) by (intros x; auto). cbn.
  rewrite !filter_all; [reflexivity| |]; intros x Hx; apply negb_true_iff, mem_false; intros Hc.
  - apply NoDup_tail in H. clear - H Hx Hc. induction cond as [|y cond IH]; [destruct Hc|]. cbn in H. inversion H; subst. destruct Hc as [->|Hc]; auto.
    apply H2, in_or_app. auto.
  - clear - H Hx Hc. induction a as [|y a IH]; [destruct Hx|]. cbn in H. inversion H; subst. destruct Hx as [->|Hx]; auto.
    apply H2, in_or_app. right. apply in_or_app. auto.
Qed.

Section Change.
  Variables (parse : string -> cond) (srt : list okey -> list env -> list env) (t : stable).

  Lemma existsb_pass_all l : existsb (fun c => aggregate_col (snd c)) (pass_all l) = false.
  Proof. induction l; cbn; auto. Qed.
  Lemma order_of_pass l : order_of (pass_all l) = None.
  Proof. unfold order_of. replace (flat_map _ _) with (@nil (list okey)); [reflexivity|]. induction l; cbn; auto. Qed.
  Lemma assoc_pass_all l c : assoc c (pass_all l) = if mem c l then Some (Pass c) else None.
  Proof. rewrite <- (app_nil_r (pass_all l)). now rewrite assoc_pass. Qed.
  (** SELECT cols FROM .. WHERE .. *)
  Lemma run_pass cols from w idx v : incl idx cols -> In v cols ->
    obs idx v (run_sql parse srt (SqlSel (pass_all cols) from w []) t) =
    List.map (fun e => (key_of idx e, num_at e v)) (filter (where_pass w) (run_src parse srt from t)).
  Proof.
    intros Hi Hv. rewrite run_sql_sel. cbn zeta iota. rewrite existsb_pass_all. unfold select. rewrite order_of_pass.
    unfold obs. rewrite map_map. set (envs := filter (where_pass w) (run_src parse srt from t)).
    rewrite <- (prefixes_snd (fun e => (key_of idx e, num_at e v)) envs []). apply map_ext. intros p. f_equal.
    - unfold key_of. apply map_ext_in. intros c Hc. rewrite assoc_pass_all. apply Hi, mem_in in Hc. now rewrite Hc.
    - rewrite assoc_pass_all. apply mem_in in Hv. now rewrite Hv.
  Qed.

  Definition chg (percent : bool) (x y : option R) : option R :=
    if percent then lift2 Rminus (lift2 Rmult (vdiv x y) (Some 100)) (Some 100) else lift2 Rminus x y.
  Definition pchg (percent : bool) (x y : num) : num :=
    if percent then xmul (xsub (xdiv x y) (Fin 1)) (Fin 100) else xsub x y.
  Lemma chg_value percent x y : no_inf x -> no_inf y -> (percent = true -> y = Fin 0 -> x = Fin 0 \/ x = NaN) ->
    unf (pchg percent x y) = chg percent (unf x) (unf y) /\ no_inf (pchg percent x y).
  Proof.
    intros [Hx1 Hx2] [Hy1 Hy2] H. destruct percent; cbn [pchg chg].
    - destruct x as [a| | |], y as [b| | |]; try congruence; try (cbn; repeat split; discriminate).
      + cbn. unfold Reqb. destruct (Req_EM_T b 0) as [->|Hb].
        * destruct (H eq_refl eq_refl) as [E|E]; [|discriminate]. injection E as ->. unfold inf_times.
          destruct (Req_EM_T 0 0); [|congruence]. cbn. repeat split; discriminate.
        * cbn. split; [|split; discriminate]. f_equal. lra.
      + cbn. split; [|split; discriminate]. destruct (Reqb b 0); reflexivity.
    - destruct x as [a| | |], y as [b| | |]; try congruence; cbn; (split; [|split; discriminate]); try reflexivity.
  Qed.

  Section Step.
    Variables (percent : bool) (by_ cond base rest : list string) (incl_base : bool) (v : string) (raw : sqlq) (F : rframe).
    Notation n := (List.length by_).
    Notation nc := (List.length cond).
    Notation idx := (by_ ++ cond ++ rest).
    Notation v' := (String.append v (if percent then " Percent Change" else " Absolute Change")).
    Hypothesis Hbase : List.length base = List.length cond.
    Hypothesis Hinv : inv parse srt t raw idx v F.
    Hypothesis Hfit : change_fits percent n base F.
    Hypothesis Hv' : ~ In v' idx.

    Let Raw := run_sql parse srt raw t.
    Let us := by_ ++ rest.
    Let base_cond := combine cond base.
    Let base_value := SqlSel (pass_all (us ++ [v])) (From raw) (Some (WEq base_cond)) [].
    Let w := if incl_base then None else Some (WNot base_cond).

    Lemma change_sql_sel1 : change_sql percent cond base incl_base idx raw =
      sel1 idx v' (change_expr percent v v) (Join "ChangeRaw" raw "ChangeBase" base_value us) w.
    Proof.
      destruct Hinv as (Hsh & _). pose proof Hsh as (Hnd & Hv & _). unfold change_sql. rewrite (shape_add _ _ _ Hsh), (shape_all _ _ _ Hsh).
      assert (difference (idx ++ [v]) cond = us ++ [v]) as ->.
      { rewrite <- !app_assoc. rewrite difference_split; [unfold us; now rewrite <- app_assoc|].
        pose proof (NoDup_snoc _ _ Hnd Hv) as H. rewrite <- !app_assoc in H. exact H. }
      rewrite difference_split by assumption. fold us.
      rewrite !last_values_one. reflexivity.
    Qed.

    Lemma raw_rows r : In r Raw -> exists k x, In (k, x) F /\ List.map (fun c => label (r c)) idx = List.map Some k /\ number (r v) = unf x /\ List.length k = List.length idx.
    Proof.
      destruct Hinv as (_ & _ & Hp & _ & _ & Hl). intros Hr.
      apply (in_map (fun r : row => (List.map (fun c => label (r c)) idx, number (r v)))) in Hr. fold (obs idx v Raw) in Hr.
      apply (Permutation_in _ Hp) in Hr. apply in_map_iff in Hr as [[k x] [E Hk]]. unfold enc in E. cbn in E.
      exists k, x. split; [exact Hk|]. injection E as -> ->. repeat split. rewrite Forall_forall in Hl. apply (Hl _ Hk).
    Qed.
    Lemma labels_cond r : List.map (fun c => label (r c)) cond = scond n nc (List.map (fun c => label (r c)) idx).
    Proof. unfold scond. rewrite !map_app, skipn_app_len by now rewrite map_length. now rewrite firstn_app_len by now rewrite map_length. Qed.
    Lemma labels_us r : List.map (fun c => label (r c)) us = sdrop n nc (List.map (fun c => label (r c)) idx).
    Proof.
      unfold sdrop, us. rewrite !map_app, firstn_app_len by now rewrite map_length. f_equal.
      rewrite app_assoc, skipn_app_len; [reflexivity|]. now rewrite app_length, !map_length.
    Qed.
    Lemma where_eq r : In r Raw -> fold_right (fun p acc => and3 (equals (plain_env r) p) acc) (Some true) base_cond =
      Some (isb n nc base (List.map (fun c => label (r c)) idx)).
    Proof.
      intros Hr. destruct (raw_rows r Hr) as (k & x & _ & Ek & _ & _). rewrite Ek, isb_some.
      apply all_eq_some; [exact Hbase|]. rewrite key_of_plain, labels_cond, Ek. apply scond_some.
    Qed.

    Definition J (S T : list (skey * option R)) : list (skey * option R) :=
      flat_map (fun a => if incl_base || negb (isb n nc base (fst a))
                         then List.map (fun b => (fst a, chg percent (snd a) (snd b))) (filter (fun b => mk (sdrop n nc (fst a)) (fst b)) T)
                         else []) S.
    Lemma J_perm S S' T T' : Permutation S S' -> Permutation T T' -> Permutation (J S T) (J S' T').
    Proof.
      intros HS HT. unfold J. etransitivity; [apply flat_map_perm, HS|]. apply flat_map_perm_ext. intros a.
      destruct (incl_base || negb (isb n nc base (fst a))); [|constructor]. now apply Permutation_map, filter_perm.
    Qed.
    Lemma base_rows : obs us v (run_sql parse srt base_value t) =
      List.map (fun kv => (sdrop n nc (fst kv), snd kv)) (filter (fun kv => isb n nc base (fst kv)) (obs idx v Raw)).
    Proof.
      unfold base_value. rewrite run_pass; [|intros c Hc; apply in_or_app; auto|apply in_or_app; right; now left].
      rewrite run_src_from. fold Raw. rewrite filter_map_comm, map_map. unfold obs. rewrite filter_map_comm, map_map. cbn [fst snd].
      rewrite (filter_ext_in _ (fun r => isb n nc base (List.map (fun c => label (r c)) idx))).
      - apply map_ext. intros r. f_equal. now rewrite key_of_plain, labels_us.
      - intros r Hr. cbn [where_pass]. rewrite (where_eq r Hr). now destruct (isb n nc base _).
    Qed.
    Lemma change_rows : obs idx v' (run_sql parse srt (change_sql percent cond base incl_base idx raw) t) =
      J (obs idx v Raw) (obs us v (run_sql parse srt base_value t)).
    Proof.
      rewrite change_sql_sel1. rewrite run_sel1; [|exact Hv'|unfold change_expr; now destruct percent].
      assert (orders (change_expr percent v v) = []) as -> by (unfold change_expr; now destruct percent).
      rewrite run_src_join. fold Raw. set (B := run_sql parse srt base_value t).
      set (envs := filter (where_pass w) _).
      set (f := fun e : env => (key_of idx e, chg percent (number (e (Of "ChangeRaw" v))) (number (e (Of "ChangeBase" v))))).
      transitivity (List.map f envs).
      { rewrite <- (prefixes_snd f envs []). apply map_ext. intros p. unfold f. f_equal. unfold change_expr, chg. destruct percent; reflexivity. }
      unfold envs. rewrite map_filter_flat. unfold J. change (obs idx v Raw) with (List.map (fun r : row => (List.map (fun c => label (r c)) idx, number (r v))) Raw). rewrite flat_map_map. cbn [fst snd].
      apply flat_map_ext_in. intros r1 Hr1. rewrite filter_map_comm, map_map.
      assert (forall r2, where_pass w (join_env "ChangeRaw" r1 "ChangeBase" r2) = incl_base || negb (isb n nc base (List.map (fun c => label (r1 c)) idx))) as HW.
      { intros r2. unfold w. destruct incl_base; [reflexivity|]. cbn [where_pass orb].
        change (fold_right _ (Some true) base_cond) with (fold_right (fun p acc => and3 (equals (plain_env r1) p) acc) (Some true) base_cond).
        rewrite (where_eq r1 Hr1). now destruct (isb n nc base _). }
      destruct (incl_base || negb _).
      - rewrite filter_all by (intros r2 _; apply HW). unfold obs. rewrite filter_map_comm, map_map.
        rewrite (filter_ext (match_using us r1) (fun r2 => mk (sdrop n nc (List.map (fun c => label (r1 c)) idx)) (List.map (fun c => label (r2 c)) us))).
        + apply map_ext. intros r2. reflexivity.
        + intros r2. now rewrite match_using_mk, labels_us.
      - rewrite filter_none by (intros r2 _; apply HW). reflexivity.
    Qed.

    Lemma base_exists k x : In (k, x) F -> exists b, In (firstn n k ++ base ++ skipn (n + nc) k, b) F /\ (percent = true -> b = Fin 0 -> x = Fin 0 \/ x = NaN).
    Proof.
      intros Hk. destruct Hinv as (_ & _ & _ & _ & _ & Hl). rewrite Forall_forall in Hl. pose proof (Hl _ Hk) as El. cbn in El. rewrite !app_length in El.
      apply (proj2 Hfit (firstn n k) (cond_of n nc k) (skipn (n + nc) k) x).
      - rewrite firstn_length. lia.
      - unfold cond_of. rewrite firstn_length, skipn_length. lia.
      - rewrite <- key_split by lia. exact Hk.
    Qed.
    Lemma good : good_index (n + nc) F.
    Proof.
      destruct Hinv as (_ & _ & _ & _ & Hd & Hl). split; [exact Hd|]. intros k x Hk. rewrite Forall_forall in Hl. specialize (Hl _ Hk). cbn in Hl.
      rewrite Hl, !app_length. lia.
    Qed.
    Lemma change_step : exists res, compare_with_base (pchg percent) n nc base incl_base F = Some res /\
      inv parse srt t (change_sql percent cond base incl_base idx raw) idx v' res.
    Proof.
      pose proof Hinv as (Hsh & Hsc & Hp & HF & Hd & Hl). pose proof Hsh as (Hnd & Hv & _). pose proof good as Hg.
      unfold compare_with_base.
      destruct (xs n nc base F) as [b|] eqn:Exs.
      2:{ exfalso. pose proof Hfit as [Hne _]. rewrite xs_None in Exs.
          assert (exists r, In r F) as [[k x] Hkx] by (revert Hne; generalize F; intros [|r0 ?]; [congruence|exists r0; now left]).
          destruct (base_exists k x Hkx) as (y & Hy & _). apply (Exs _ _ Hy). apply cond_of_app; [|exact Hbase].
          rewrite Forall_forall in Hl. specialize (Hl _ Hkx). cbn in Hl. rewrite !app_length in Hl. rewrite firstn_length. lia. }
      set (res0 := List.map (fun r => (fst r, pchg percent (snd r) (lookup (drop_cond n nc (fst r)) b))) F).
      eexists. split; [reflexivity|].
      set (res := if incl_base then res0 else _).
      assert (res = filter (fun r => incl_base || negb (key_eqb (cond_of n nc (fst r)) base)) res0) as Eres.
      { unfold res. destruct incl_base; [|reflexivity]. symmetry. apply filter_all. reflexivity. }
      assert (forall k x, In (k, x) F -> exists y, In (firstn n k ++ base ++ skipn (n + nc) k, y) F /\ lookup (drop_cond n nc k) b = y /\ (percent = true -> y = Fin 0 -> x = Fin 0 \/ x = NaN)) as Hlook.
      { intros k x Hk. destruct (base_exists k x Hk) as (y & Hy & H0). exists y. split; [exact Hy|]. split; [|exact H0].
        apply lookup_In; [now apply (xs_unique n nc base F)|].
        assert (List.length k = List.length idx) as El by (rewrite Forall_forall in Hl; apply (Hl _ Hk)). rewrite !app_length in El.
        unfold drop_cond. apply (xs_In n nc base F); auto. rewrite firstn_length. lia. }
      assert (Forall (fun r => no_inf (snd r)) res0) as HF0.
      { apply Forall_forall. intros r Hr. apply in_map_iff in Hr as [[k x] [<- Hk]]. cbn. destruct (Hlook k x Hk) as (y & Hy & -> & H0).
        rewrite Forall_forall in HF. apply chg_value; [apply (HF _ Hk)|apply (HF _ Hy)|exact H0]. }
      split; [rewrite change_sql_sel1; now apply shape_sel1|]. split; [|split; [|split; [|split]]].
      - rewrite change_sql_sel1. assert (forall c, In c idx -> In c (all_columns raw)) as Hin by (intros c Hc; rewrite (shape_all _ _ _ Hsh); apply in_or_app; auto).
        assert (all_columns base_value = us ++ [v]) as Eb. { unfold all_columns, base_value. cbn. unfold pass_all. rewrite map_map. cbn. rewrite map_id. now apply filter_all. }
        assert (forall c, In c us -> In c idx) as Hus. { intros c Hc. unfold us in Hc. apply in_app_or in Hc. apply in_or_app. destruct Hc; [auto|right; apply in_or_app; auto]. }
        assert (forall c, In c cond -> In c idx) as Hco by (intros c Hc; apply in_or_app; right; apply in_or_app; auto).
        apply scoped_sel1.
        + intros c Hc. cbn. rewrite (proj2 (mem_in c _) (Hin c Hc)). reflexivity.
        + assert (in_source (Join "ChangeRaw" raw "ChangeBase" base_value us) (Of "ChangeRaw" v) = true) as E1.
          { cbn [in_source]. rewrite (shape_all _ _ _ Hsh). rewrite String.eqb_refl. rewrite (proj2 (mem_in v (idx ++ [v]))); [reflexivity|apply in_or_app; right; now left]. }
          assert (in_source (Join "ChangeRaw" raw "ChangeBase" base_value us) (Of "ChangeBase" v) = true) as E2.
          { cbn [in_source]. rewrite Eb. rewrite (proj2 (mem_in v (us ++ [v]))); [reflexivity|apply in_or_app; right; now left]. }
          unfold change_expr. intros r Hr. destruct percent; cbn in Hr; repeat (destruct Hr as [<-|Hr]; [assumption|]); destruct Hr.
        + intros r Hr. unfold w in Hr. destruct incl_base; [destruct Hr|]. cbn in Hr. apply in_map_iff in Hr as [[c b'] [<- Hc]]. apply in_combine_l in Hc. cbn.
          rewrite (proj2 (mem_in c _) (Hin c (Hco c Hc))). reflexivity.
        + cbn [scoped_src]. rewrite Hsc. cbn [andb]. apply andb_true_intro. split.
          * unfold base_value. cbn [well_scoped scoped_src]. rewrite Hsc, andb_true_r. apply forallb_forall. intros r Hr. rewrite !in_app_iff in Hr. cbn in Hr.
            destruct Hr as [Hr|[Hr|[]]].
            -- apply in_flat_map in Hr as [p [Hp1 Hr]]. unfold pass_all in Hp1. apply in_map_iff in Hp1 as [c [<- Hc]]. cbn in Hr. destruct Hr as [<-|[]]. cbn.
               apply mem_in. apply in_app_or in Hc as [Hc|[<-|[]]]; [auto|]. rewrite (shape_all _ _ _ Hsh). apply in_or_app. right. now left.
            -- apply in_map_iff in Hr as [[c b'] [<- Hc]]. apply in_combine_l in Hc. cbn. apply mem_in. auto.
          * apply forallb_forall. intros c Hc. rewrite Eb. rewrite (proj2 (mem_in c _) (Hin c (Hus c Hc))), (proj2 (mem_in c (us ++ [v]))) by (apply in_or_app; auto). reflexivity.
      - rewrite change_rows, base_rows. fold Raw in Hp.
        etransitivity; [apply J_perm; [exact Hp|apply Permutation_map, filter_perm, Hp]|].
        rewrite Eres. unfold J. rewrite flat_map_map. rewrite (filter_map_comm enc). cbn [fst snd enc].
        unfold res0. rewrite filter_map_comm. rewrite (map_map _ enc). cbn [fst].
        assert (forall k x, In (k, x) F -> filter (fun b0 => mk (sdrop n nc (List.map Some k)) (fst b0))
             (List.map (fun kv => (sdrop n nc (fst kv), snd kv)) (List.map enc (filter (fun r => isb n nc base (List.map Some (fst r))) F))) =
             [(List.map Some (drop_cond n nc k), unf (lookup (drop_cond n nc k) b))]) as HJ.
        { intros k x Hk. destruct (Hlook k x Hk) as (y & Hy & -> & _).
          rewrite map_map, filter_map_comm. cbn [fst snd enc]. rewrite filter_filter.
          assert (List.length k = List.length idx) as El by (rewrite Forall_forall in Hl; apply (Hl _ Hk)). rewrite !app_length in El.
          rewrite (filter_unique _ F (firstn n k ++ base ++ skipn (n + nc) k) y Hd Hy).
          - cbn. rewrite sdrop_some, drop_cond_app; [reflexivity|rewrite firstn_length; lia|exact Hbase].
          - intros [k' x'] Hk'. cbn [fst]. assert (List.length k' = List.length idx) as El' by (rewrite Forall_forall in Hl; apply (Hl _ Hk')). rewrite !app_length in El'.
            rewrite isb_some, !sdrop_some, mk_some by (unfold drop_cond; rewrite !app_length, !firstn_length, !skipn_length; lia).
            rewrite andb_true_iff, !key_eqb_eq. split.
            + intros [E1 E2]. apply (key_parts_inj n nc); [lia| rewrite !app_length, firstn_length, skipn_length; lia| |].
              * rewrite E1. symmetry. apply cond_of_app; [rewrite firstn_length; lia|exact Hbase].
              * rewrite <- E2, drop_cond_app; [reflexivity|rewrite firstn_length; lia|exact Hbase].
            + intros ->. split; [apply cond_of_app; [rewrite firstn_length; lia|exact Hbase]|].
              rewrite drop_cond_app; [reflexivity|rewrite firstn_length; lia|exact Hbase]. }
        clear Eres. revert HJ. generalize (filter (fun r => isb n nc base (List.map Some (fst r))) F). intros FB HJ.
        assert (forall G, incl G F -> flat_map (fun a => if incl_base || negb (isb n nc base (List.map Some (fst a)))
             then List.map (fun b0 => (List.map Some (fst a), chg percent (unf (snd a)) (snd b0)))
                (filter (fun b0 => mk (sdrop n nc (List.map Some (fst a))) (fst b0)) (List.map (fun kv => (sdrop n nc (fst kv), snd kv)) (List.map enc FB))) else []) G =
           List.map (fun x => enc (fst x, pchg percent (snd x) (lookup (drop_cond n nc (fst x)) b)))
             (filter (fun x => incl_base || negb (key_eqb (cond_of n nc (fst x)) base)) G)) as HG.
        { induction G as [|[k x] G IH]; intros Hi; [reflexivity|]. cbn [flat_map filter fst snd]. rewrite isb_some.
          rewrite IH by (intros q Hq; apply Hi; now right).
          destruct (incl_base || negb (key_eqb (cond_of n nc k) base)); [|reflexivity].
          rewrite (HJ k x) by (apply Hi; now left). cbn [List.map app fst snd]. f_equal. unfold enc. cbn [fst snd]. f_equal.
          destruct (Hlook k x) as (y & Hy & -> & H0); [apply Hi; now left|]. rewrite Forall_forall in HF.
          symmetry. apply chg_value; [apply (HF (k, x)), Hi; now left|apply (HF _ Hy)|exact H0]. }
        specialize (HG F (fun q H => H)). rewrite <- HG. apply Permutation_refl.
      - rewrite Eres. apply Forall_forall. intros r Hr. apply filter_In in Hr as [Hr _]. rewrite Forall_forall in HF0. auto.
      - rewrite Eres. apply NoDup_map_filter. unfold res0. rewrite map_map. cbn. exact Hd.
      - rewrite Eres. apply Forall_forall. intros r Hr. apply filter_In in Hr as [Hr _]. apply in_map_iff in Hr as [[k x] [<- Hk]]. cbn. rewrite Forall_forall in Hl. apply (Hl _ Hk).
    Qed.
  End Step.
End Change.
