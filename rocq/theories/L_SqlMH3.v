(** MH in SQL and in pandas: the results. *)
From Coq Require Import Reals List Bool String Arith Permutation Lia Lra.
From Verif Require Import M_Num M_Frame L_Frame M_Ops S_Ops L_OpsA L_OpsB M_SqlGlobal M_SqlLeaf S_SqlLeaf L_SqlLeaf L_SqlLeaf2 M_SqlOps S_SqlOps L_SqlOps L_SqlOps2 L_SqlOps5 L_SqlBin L_SqlBin3 M_SqlList S_SqlList M_SqlJackknife M_SqlJackFast L_SqlJack7 M_SqlMH S_SqlMH L_SqlMH1 L_SqlMH2.
Import ListNotations.
Open Scope string_scope.
Open Scope list_scope.

Definition pnum (p q : num * num) : num := xmul (xmul (fst p) (snd q)) (xdiv (Fin 1) (xadd (snd p) (snd q))).
Definition pden (p q : num * num) : num := xmul (xmul (fst q) (snd p)) (xdiv (Fin 1) (xadd (snd p) (snd q))).
Lemma no_inf_Fin r : no_inf (Fin r). Proof. split; discriminate. Qed.
Lemma no_inf_NaN : no_inf NaN. Proof. split; discriminate. Qed.
Lemma term_value p q : no_inf (fst p) -> no_inf (snd p) -> no_inf (fst q) -> no_inf (snd q) ->
  (forall a b, snd p = Fin a -> snd q = Fin b -> (a + b = 0)%R -> a = 0%R) ->
  term (unf2 p) (unf2 q) = (unf (pnum p q), unf (pden p q)) /\ no_inf (pnum p q) /\ no_inf (pden p q).
Proof.
  destruct p as [ka na], q as [kb nb]. cbn [fst snd]. intros [A1 A2] [B1 B2] [C1 C2] [D1 D2] H. unfold term, pnum, pden, unf2. cbn [fst snd].
  destruct na as [a| | |], nb as [b| | |]; try congruence; cbn [xadd unf].
  2-4: destruct ka, kb; try congruence; cbn; repeat split; try discriminate.
  cbn [lift2]. destruct (Req_EM_T (a + b) 0) as [E|E].
  - pose proof (H a b eq_refl eq_refl E) as ->. assert (b = 0%R) as -> by lra. 
    destruct ka as [x| | |], kb as [y| | |]; try congruence; cbn; unfold Reqb, inf_times, Rltb; repeat (destruct (Req_EM_T _ _) as [?|?]; try lra; cbn; unfold inf_times, Rltb); repeat (destruct (Rlt_dec _ _) as [?|?]; try lra; cbn); repeat split; try discriminate; try reflexivity; exfalso; lra.
  - assert (Reqb (a + b) 0 = false) as E1 by (unfold Reqb; destruct (Req_EM_T _ _); congruence). assert (Reqb (b + a) 0 = false) as E2 by (rewrite Rplus_comm; exact E1).
    cbn [xdiv]. destruct (Req_EM_T (a + b) 0) as [E0|_]; [contradiction|]. unfold vdiv. cbn [lift2]. rewrite E2.
    destruct ka as [x| | |], kb as [y| | |]; try congruence; cbn [xmul unf lift2 option_map]; repeat split; try discriminate; f_equal; f_equal; field; lra.
Qed.

Lemma finite_nonnull l : finite_values l = nonnull (List.map unf l).
Proof. induction l as [|[] l IH]; cbn; auto. now rewrite IH. Qed.
Lemma coalesce_ssum l : coalesce0 (ssum l) = Some (Rsum (nonnull l)).
Proof. unfold ssum. destruct (nonnull l); reflexivity. Qed.
Definition ratio (a b : num) : num := xmul (xsub (xdiv a b) (Fin 1)) (Fin 100).
Lemma fin_value l l' : Forall no_inf l -> Forall no_inf l' -> no_inf (ratio (xsum l) (xsum l')) ->
  fetch (fin (ssum (List.map unf l)) (ssum (List.map unf l'))) = ratio (xsum l) (xsum l').
Proof.
  intros H H' Hn. unfold fin. rewrite !coalesce_ssum, <- !finite_nonnull. rewrite (xsum_finite _ H), (xsum_finite _ H') in *. revert Hn. generalize (Rsum (finite_values l)), (Rsum (finite_values l')). intros a b [N1 N2].
  unfold ratio in *. cbn [vdiv]. cbn [xdiv] in *. unfold Reqb in *. destruct (Req_EM_T b 0) as [E|E]; cbn [option_map fetch].
  - assert (a = 0%R) as ->; [|unfold inf_times, Reqb; destruct (Req_EM_T 0 0); [reflexivity|congruence]].
    unfold inf_times in *. destruct (Req_EM_T a 0) as [->|]; [reflexivity|]. exfalso. destruct (Rlt_dec a 0); cbn in N1, N2; unfold inf_times in *; destruct (Req_EM_T 100 0) as [?|_]; try lra; destruct (Rlt_dec 100 0); try lra; cbn in N1, N2; congruence.
  - cbn. f_equal. lra.
Qed.

Section Result.
  Variables (s cond strata rest base : list string) (incl_base : bool) (vn vd : string) (Raw : list row) (fr : frame2).
  Notation n := (List.length s). Notation nc := (List.length cond). Notation ns := (List.length strata).
  Notation I := ((s ++ cond ++ strata) ++ rest).
  Hypothesis Hnd : NoDup I.
  Hypothesis Hvn : ~ In vn I.
  Hypothesis Hvd : ~ In vd I.
  Hypothesis Hbase : List.length base = nc.
  Hypothesis Hraw : Permutation (list_shown I [vn; vd] Raw) (List.map (fun kv => (List.map Some (fst kv), [fst (snd kv); snd (snd kv)])) fr).
  Hypothesis Hd : NoDup (List.map fst fr).
  Hypothesis Hl : forall k q, In (k, q) fr -> List.length k = List.length I.
  Hypothesis Hfin : forall k q, In (k, q) fr -> no_inf (fst q) /\ no_inf (snd q).
  Hypothesis Hfit : mh_data_fits n nc ns base incl_base fr.
  Notation joined := (joined s cond strata rest base incl_base Raw).
  Notation obj := (obj s cond rest vn vd).

  Lemma len k q : In (k, q) fr -> List.length k = (n + nc + ns + List.length rest)%nat.
  Proof. intros H. rewrite (Hl _ _ H), !app_length. lia. Qed.
  Lemma base_there : exists df_base, xs n nc base fr = Some df_base.
  Proof.
    destruct (xs n nc base fr) as [b|] eqn:E; [eauto|]. rewrite xs_None in E. destruct Hfit as ((k & q & Hk & Hb) & _). exfalso. exact (E _ _ Hk Hb).
  Qed.
  Lemma cond_drop k q : In (k, q) fr -> cond_of n nc (drop_strata n nc ns k) = cond_of n nc k.
  Proof.
    intros H. pose proof (len _ _ H) as L. unfold drop_strata. rewrite (key_split n nc k) by lia. assert (List.length (firstn n k) = n) as L1 by (apply firstn_length_app; lia).
    assert (List.length (cond_of n nc k) = nc) as L2 by (unfold cond_of; rewrite firstn_length, skipn_length; lia).
    rewrite (cond_of_app n nc (firstn n k) (cond_of n nc k)) by assumption. rewrite app_assoc. rewrite firstn_app_len by (rewrite app_length; lia).
    rewrite <- app_assoc. apply cond_of_app; assumption.
  Qed.

  Section Base.
    Variable df_base : frame2.
    Hypothesis Hxs : xs n nc base fr = Some df_base.
    Notation partner k := (lookup2 (drop_cond n nc k) df_base).
    Lemma partner_case k q : In (k, q) fr -> partner k = (NaN, NaN) \/ In (firstn n k ++ base ++ skipn (n + nc) k, partner k) fr.
    Proof.
      intros Hk. pose proof (len _ _ Hk) as Lk. assert (List.length (firstn n k) = n) as L1 by (apply firstn_length_app; lia). set (kb := firstn n k ++ base ++ skipn (n + nc) k).
      assert (good_index (n + nc) fr) as Hg by (split; [exact Hd|]; intros k0 q0 H; rewrite (len _ _ H); lia).
      destruct (in_dec (list_eq_dec string_dec) kb (List.map fst fr)) as [Hin|Hin].
      - right. apply in_map_iff in Hin as [[k' q'] [E Hr]]. cbn in E. subst k'.
        assert (partner k = q') as ->; [|exact Hr]. apply lookup2_In; [exact (xs_unique _ _ _ _ _ Hg Hxs)|]. unfold drop_cond. exact (xs_In _ _ _ _ _ _ _ _ Hxs L1 Hbase Hr).
      - left. apply lookup2_None. unfold drop_cond. apply (xs_not_In _ _ _ _ _ _ _ Hg Hxs L1 Hbase). intros v Hv. apply Hin. apply in_map_iff. eexists. split; [|exact Hv]. reflexivity.
    Qed.
    Lemma terms k q : In (k, q) fr -> term (unf2 q) (unf2 (partner k)) = (unf (pnum q (partner k)), unf (pden q (partner k))) /\ no_inf (pnum q (partner k)) /\ no_inf (pden q (partner k)).
    Proof.
      intros Hk. destruct (Hfin _ _ Hk) as [Q1 Q2]. pose proof (len _ _ Hk) as Lk. destruct (partner_case k q Hk) as [E|Hb].
      - rewrite E. apply term_value; auto; try apply no_inf_NaN. cbn. discriminate.
      - destruct (Hfin _ _ Hb) as [P1 P2]. apply term_value; auto. intros a b Ea Eb. destruct Hfit as (_ & H & _). destruct q as [ka na], (partner k) as [kb nb]. cbn in Ea, Eb. subst na nb.
        apply (H (firstn n k) (cond_of n nc k) (skipn (n + nc) k) ka a kb b); auto.
        + apply firstn_length_app. lia.
        + unfold cond_of. rewrite firstn_length, skipn_length. lia.
        + rewrite <- key_split by lia. exact Hk.
    Qed.

    Notation kept := (filter (fun r : list string * (num * num) => incl_base || negb (key_eqb (cond_of n nc (fst r)) base)) fr).
    Notation T := (List.map (fun r => pterm s cond strata df_base (fst r) (snd r)) kept).
    Definition at_group (g : list string) (f : num * num -> num * num -> num) : list num :=
      List.map (fun r => f (snd r) (partner (fst r))) (filter (fun r => key_eqb (drop_strata n nc ns (fst r)) g) fr).
    Lemma group_value g : incl_base = true \/ cond_of n nc g <> base -> (forall r, In r fr -> drop_strata n nc ns (fst r) = g -> cond_of n nc (fst r) = cond_of n nc g) ->
      per_group T (List.map Some g) = fin (ssum (List.map unf (at_group g pnum))) (ssum (List.map unf (at_group g pden))).
    Proof.
      intros Hg Hc. unfold per_group.
      assert (filter (same_key (List.map Some g)) T = List.map (fun r => pterm s cond strata df_base (fst r) (snd r)) (filter (fun r => key_eqb (drop_strata n nc ns (fst r)) g) fr)) as ->.
      { rewrite filter_map_comm. f_equal. clear - Hg Hc. induction fr as [|r l IH]; [reflexivity|]. cbn [filter].
        specialize (IH (fun r Hr => Hc r (or_intror Hr))).
        destruct (key_eqb (drop_strata n nc ns (fst r)) g) eqn:E.
        - apply key_eqb_eq in E. rewrite (Hc r (or_introl eq_refl) E). assert (incl_base || negb (key_eqb (cond_of n nc g) base) = true) as ->.
          { destruct Hg as [-> | Hg]; [reflexivity|]. apply key_eqb_neq in Hg. rewrite Hg. apply orb_true_r. }
          cbn [filter]. unfold same_key at 1. cbn [pterm fst]. rewrite E. destruct (skey_dec _ _); [|congruence]. f_equal. exact IH.
        - destruct (incl_base || _); [|exact IH]. cbn [filter]. unfold same_key at 1. cbn [pterm fst]. destruct (skey_dec _ _) as [E'|_]; [|exact IH]. apply some_inj in E'. apply key_eqb_neq in E. contradiction. }
      unfold at_group. rewrite !map_map. f_equal; f_equal; apply map_ext_in; intros [k q] Hr; apply filter_In in Hr as [Hr _]; unfold pterm; cbn [fst snd]; destruct (terms k q Hr) as (-> & _); reflexivity.
    Qed.
    Lemma at_fin g f : (f = pnum \/ f = pden) -> Forall no_inf (at_group g f).
    Proof.
      intros Hf. apply Forall_forall. intros v Hv. unfold at_group in Hv. apply in_map_iff in Hv as ([k q] & <- & Hr). apply filter_In in Hr as [Hr _]. cbn [fst snd].
      destruct (terms k q Hr) as (_ & H1 & H2). destruct Hf as [-> | ->]; assumption.
    Qed.
  End Base.

  Lemma mh_unfold df_base : xs n nc base fr = Some df_base -> mh n nc ns base incl_base fr = Some
    (let res := List.map (fun g => (g, ratio (xsum (at_group df_base g pnum)) (xsum (at_group df_base g pden)))) (sort_uniq (List.map (fun r => drop_strata n nc ns (fst r)) fr)) in
     if incl_base then res else filter (fun r => negb (key_eqb (cond_of n nc (fst r)) base)) res).
  Proof.
    intros E. unfold mh. rewrite E. cbn zeta. rewrite !map_map.
    assert (forall A (f : list string * (num * num) -> A) , List.map (fun r => let '(ka, na, (kb, nb)) := snd (fst r, (snd r, lookup2 (drop_cond n nc (fst r)) df_base)) in f r) fr = List.map f fr) as G.
    { intros A f. apply map_ext. intros [k [ka na]]. cbn [fst snd]. now destruct (lookup2 _ _). }
    assert (List.map (fun r : list string * (num * num) => fst (let '(ka, na, (kb, nb)) := snd (fst r, (snd r, lookup2 (drop_cond n nc (fst r)) df_base)) in (drop_strata n nc ns (fst (fst r, (snd r, lookup2 (drop_cond n nc (fst r)) df_base))), xmul (xmul ka nb) (xdiv (Fin 1) (xadd (snd (fst (snd (fst r, (snd r, lookup2 (drop_cond n nc (fst r)) df_base))))) (snd (snd (snd (fst r, (snd r, lookup2 (drop_cond n nc (fst r)) df_base)))))))))) fr = List.map (fun r => drop_strata n nc ns (fst r)) fr) as ->.
    { apply map_ext. intros [k [ka na]]. cbn [fst snd]. now destruct (lookup2 _ _). }
    assert (forall g, (fun g => (g, xmul (xsub (xdiv
      (xsum (List.map snd (filter (fun r => key_eqb (fst r) g) (List.map (fun r : list string * (num * num) => let '(ka, na, (kb, nb)) := snd (fst r, (snd r, lookup2 (drop_cond n nc (fst r)) df_base)) in (drop_strata n nc ns (fst (fst r, (snd r, lookup2 (drop_cond n nc (fst r)) df_base))), xmul (xmul ka nb) (xdiv (Fin 1) (xadd (snd (fst (snd (fst r, (snd r, lookup2 (drop_cond n nc (fst r)) df_base))))) (snd (snd (snd (fst r, (snd r, lookup2 (drop_cond n nc (fst r)) df_base))))))))) fr))))
      (xsum (List.map snd (filter (fun r => key_eqb (fst r) g) (List.map (fun r : list string * (num * num) => let '(ka, na, (kb, nb)) := snd (fst r, (snd r, lookup2 (drop_cond n nc (fst r)) df_base)) in (drop_strata n nc ns (fst (fst r, (snd r, lookup2 (drop_cond n nc (fst r)) df_base))), xmul (xmul kb na) (xdiv (Fin 1) (xadd (snd (fst (snd (fst r, (snd r, lookup2 (drop_cond n nc (fst r)) df_base))))) (snd (snd (snd (fst r, (snd r, lookup2 (drop_cond n nc (fst r)) df_base))))))))) fr))))) (Fin 1)) (Fin 100))) g
      = (g, ratio (xsum (at_group df_base g pnum)) (xsum (at_group df_base g pden)))) as G2.
    { intros g. cbn beta. unfold ratio, at_group, pnum, pden. do 4 f_equal; f_equal; rewrite filter_map_comm, map_map.
      - rewrite (filter_ext _ (fun r => key_eqb (drop_strata n nc ns (fst r)) g)) by (intros [k [ka na]]; cbn [fst snd]; now destruct (lookup2 _ _)). apply map_ext. intros [k [ka na]]. cbn [fst snd]. now destruct (lookup2 _ _).
      - rewrite (filter_ext _ (fun r => key_eqb (drop_strata n nc ns (fst r)) g)) by (intros [k [ka na]]; cbn [fst snd]; now destruct (lookup2 _ _)). apply map_ext. intros [k [ka na]]. cbn [fst snd]. now destruct (lookup2 _ _). }
    rewrite (map_ext _ _ G2). reflexivity.
  Qed.

  Lemma mh_groups res : mh n nc ns base incl_base fr = Some res ->
    Permutation (List.map (fun kv => (fst kv, fetch (snd kv))) (groups (List.map obj joined))) (List.map (fun kv => (List.map Some (fst kv), snd kv)) res).
  Proof.
    intros Hres. destruct base_there as [df_base Hxs]. pose proof (mh_unfold df_base Hxs) as Hu. rewrite Hres in Hu. injection Hu as Hu.
    pose proof (proj2 (proj2 Hfit) res) as Hinf.
    etransitivity; [apply Permutation_map, groups_perm, (joined_perm s cond strata rest base incl_base vn vd Raw fr Hnd Hvn Hvd Hbase Hraw Hd Hl df_base Hxs)|].
    set (T := List.map (fun r => pterm s cond strata df_base (fst r) (snd r)) _).
    set (keep := fun g : list string => incl_base || negb (key_eqb (cond_of n nc g) base)).
    set (V := fun g => (g, ratio (xsum (at_group df_base g pnum)) (xsum (at_group df_base g pden)))) in *.
    set (gk := sort_uniq (List.map (fun r => drop_strata n nc ns (fst r)) fr)) in *.
    assert (res = List.map V (filter keep gk)) as Er.
    { rewrite Hu. cbn zeta. unfold keep. destruct incl_base; cbn [orb]; [now rewrite filter_all by reflexivity|]. rewrite filter_map_comm. reflexivity. }
    assert (forall g, In g gk -> forall r, In r fr -> drop_strata n nc ns (fst r) = g -> cond_of n nc (fst r) = cond_of n nc g) as Hc.
    { intros g _ [k q] Hr <-. cbn [fst]. symmetry. exact (cond_drop _ _ Hr). }
    assert (Permutation (nodup skey_dec (List.map fst T)) (List.map (List.map Some) (filter keep gk))) as HK.
    { apply NoDup_Permutation; [apply NoDup_nodup| |].
      - apply FinFun.Injective_map_NoDup; [intros a b E; now apply some_inj in E|]. apply NoDup_filter, ksorted_NoDup, sort_uniq_sorted.
      - intros K. rewrite nodup_In. unfold T. rewrite map_map, !in_map_iff. split.
        + intros ([k q] & <- & Hr). apply filter_In in Hr as [Hr Hk]. cbn [fst pterm]. eexists. split; [reflexivity|]. apply filter_In. split.
          * apply sort_uniq_In, in_map_iff. exists (k, q). auto.
          * unfold keep. rewrite (cond_drop _ _ Hr). exact Hk.
        + intros (g & <- & Hg). apply filter_In in Hg as [Hg Hk]. pose proof Hg as Hg'. apply sort_uniq_In, in_map_iff in Hg' as ([k q] & E & Hr). exists (k, q). split; [cbn [fst] in E; unfold pterm; cbn [fst]; now rewrite E|].
          apply filter_In. split; [exact Hr|]. rewrite (Hc g Hg _ Hr E). exact Hk. }
    unfold groups. rewrite map_map. cbn [fst snd]. etransitivity; [apply Permutation_map, HK|]. rewrite map_map, Er, map_map.
    erewrite map_ext_in; [apply Permutation_refl|]. intros g Hg. cbn [fst snd]. f_equal. pose proof (filter_In keep g gk) as [HF _]. destruct (HF Hg) as [Hg1 Hg2].
    unfold T. rewrite (group_value df_base Hxs); [| |now apply Hc].
    2:{ unfold keep in Hg2. apply orb_true_iff in Hg2 as [->|Hg2]; [now left|right]. apply negb_true_iff, key_eqb_neq in Hg2. exact Hg2. }
    unfold V. cbn [snd]. apply fin_value; try (apply at_fin; auto).
    apply (Hinf g _ Hres). rewrite Er. apply (in_map V) in Hg. exact Hg.
  Qed.
End Result.
