From Coq Require Import List String Bool Arith Lia.
From Verif Require Import M_Metric M_Cache L_Cache L_CacheTop M_CiBase S_CiBase.
Import ListNotations.
Open Scope string_scope.
Open Scope list_scope.

Lemma to_set_again a w : to_set (to_set (a ++ w) ++ w) = to_set (a ++ w).
Proof. apply to_set_ext. intros x. rewrite in_app_iff, to_set_in, in_app_iff. tauto. Qed.
Lemma merge_nil l : NoDup (map fst l) -> merge_slice [] l = Ok l.
Proof. intros H. apply (merge_slice_disjoint l []); [exact H|]. intros c _ []. Qed.

Lemma wrap_child m self parent sb : normal_slice parent ->
  ci_wrap m self (por (Some (KKey parent)) (option_map KKey self)) sb = Ok (data_key parent sb m).
Proof.
  intros [H1 H2]. unfold ci_wrap. cbn [por truthy]. cbn [ci_new_key]. rewrite (merge_nil _ H1). cbn [rbind]. rewrite H2. reflexivity.
Qed.
Lemma wrap_base m parent sb : normal_slice parent ->
  ci_wrap m (Some (data_key parent sb m)) (option_map KKey (Some (data_key parent sb m))) [] = Ok (data_key parent sb m).
Proof.
  intros [H1 H2]. unfold ci_wrap. cbn [option_map por truthy ci_new_key data_key k_slice k_where k_raw k_split].
  rewrite (merge_nil _ H1). cbn [rbind]. rewrite H2, to_set_again. reflexivity.
Qed.

Section P.
  Context {V B : Type}.
  Variable comp : ckey -> res (V * B).
  Variable keq : ckey -> ckey -> bool.
  Hypothesis keq_spec : forall a b, keq a b = true <-> a = b.
  Notation cget := (cget keq). Notation csave := (csave keq). Notation ckey_eqb := (ckey_eqb keq).
  Notation cst := (@cst V B).

  Lemma ckey_eqb_spec a b : ckey_eqb a b = true <-> a = b.
  Proof.
    destruct a as [a x], b as [b y]. unfold M_CiBase.ckey_eqb. cbn [fst snd]. rewrite andb_true_iff, keq_spec, eqb_true_iff.
    split; [intros [-> ->]; reflexivity|intros H; injection H; auto].
  Qed.
  Lemma cget_save_same k e (st : cst) : cget k (csave k e st) = Some e.
  Proof. unfold M_CiBase.cget, M_CiBase.csave. cbn [cdict find fst]. rewrite (proj2 (ckey_eqb_spec k k) eq_refl). reflexivity. Qed.
  Lemma find_filter_other {A} (f g : A -> bool) l : (forall x, f x = true -> g x = true) -> find f (filter g l) = find f l.
  Proof.
    intros H. induction l as [|x l IH]; [reflexivity|]. cbn [filter find]. destruct (g x) eqn:G.
    - cbn [find]. rewrite IH. reflexivity.
    - destruct (f x) eqn:E; [apply H in E; congruence|exact IH].
  Qed.
  Lemma cget_save_other k k' e (st : cst) : k <> k' -> cget k' (csave k e st) = cget k' st.
  Proof.
    intros H. unfold M_CiBase.cget, M_CiBase.csave. cbn [cdict find fst].
    destruct (ckey_eqb k k') eqn:E; [apply ckey_eqb_spec in E; congruence|]. rewrite find_filter_other; [reflexivity|].
    intros x Hx. apply ckey_eqb_spec in Hx. destruct (ckey_eqb (fst x) k) eqn:E2; [|reflexivity].
    apply ckey_eqb_spec in E2. congruence.
  Qed.
  Lemma cget_setk k i k' (st : cst) : cget k (csetk i k' st) = cget k st.
  Proof. reflexivity. Qed.

  Section Round.
    Variables (ms : list ci) (sb : list string) (parent : ckey).
    Hypothesis Hs : normal_slice parent.
    Hypothesis Hid : forall m m', In m ms -> In m' ms -> ci_id m = ci_id m' -> m = m'.
    Hypothesis Heq : forall m m', In m ms -> In m' ms -> ci_conf m = true ->
      data_key parent sb m = data_key parent sb m' -> m = m'.
    Notation dk := (data_key parent sb).
    Definition Inv (st : cst) : Prop := forall m, In m ms -> forall e, cget (dk m, false) st = Some e ->
      exists v b, e = ERes v /\ comp (dk m) = Ok (v, b) /\
        (ci_conf m = true -> ckof st (ci_id m) = Some (dk m) /\ cget (dk m, true) st = Some (EBase b)).
    Lemma call_ok m st : In m ms -> Inv st ->
      let r := ci_compute comp keq m sb (Some (KKey parent)) st in
      fst r = alone comp m (dk m) /\ Inv (snd r).
    Proof.
      intros Hm I. unfold ci_compute, alone. rewrite (wrap_child m _ parent sb Hs).
      destruct (cget (dk m, false) st) as [e|] eqn:Hc.
      - destruct (I m Hm e Hc) as (v & b & -> & Hv & Hb). rewrite Hv. unfold ci_manipulate.
        destruct (ci_conf m) eqn:Hf; [|split; [reflexivity|exact I]].
        destruct (Hb eq_refl) as [Hk Hg]. rewrite Hk, (wrap_base m parent sb Hs), Hg. split; [reflexivity|exact I].
      - cbv zeta.
        assert (Hother : forall m', In m' ms -> forall e, cget (dk m', false) st = Some e -> ckof (csetk (ci_id m) (dk m) st) (ci_id m') = ckof st (ci_id m')).
        { intros m' Hm' e He. cbn [csetk ckof]. destruct (Nat.eqb (ci_id m) (ci_id m')) eqn:E; [|reflexivity].
          apply Nat.eqb_eq in E. rewrite (Hid m m' Hm Hm' E) in Hc. congruence. }
        destruct (comp (dk m)) as [[v b]|er] eqn:Hv.
        + unfold ci_manipulate. destruct (ci_conf m) eqn:Hf.
          * assert (Ek : ckof (csave (dk m, false) (ERes v) (csetk (ci_id m) (dk m) st)) (ci_id m) = Some (dk m)).
            { cbn [M_CiBase.csave csetk ckof]. rewrite Nat.eqb_refl. reflexivity. }
            rewrite Ek, (wrap_base m parent sb Hs). cbn [fst snd]. split; [reflexivity|].
            intros m' Hm' e He. rewrite cget_save_other in He by congruence.
            destruct (keq (dk m) (dk m')) eqn:Eq.
            -- apply keq_spec in Eq. assert (m = m') by exact (Heq m m' Hm Hm' Hf Eq). subst m'.
               rewrite cget_save_same in He. injection He as <-. exists v, b. split; [reflexivity|]. split; [exact Hv|].
               intros _. split; [exact Ek|apply cget_save_same].
            -- assert (Hne : dk m <> dk m') by (intros X; apply keq_spec in X; congruence).
               rewrite cget_save_other in He by congruence. rewrite cget_setk in He.
               destruct (I m' Hm' e He) as (v' & b' & E1 & E2 & E3). exists v', b'. split; [exact E1|]. split; [exact E2|].
               intros Hf'. destruct (E3 Hf') as [X Y]. split.
               ++ cbn [M_CiBase.csave ckof]. rewrite (Hother m' Hm' e He). exact X.
               ++ rewrite !cget_save_other by congruence. exact Y.
          * cbn [fst snd]. split; [reflexivity|].
            intros m' Hm' e He. destruct (keq (dk m) (dk m')) eqn:Eq.
            -- apply keq_spec in Eq. rewrite <- Eq in He. rewrite cget_save_same in He. injection He as <-. exists v, b.
               split; [reflexivity|]. split; [rewrite <- Eq; exact Hv|]. intros Hf'.
               assert (m' = m) by exact (Heq m' m Hm' Hm Hf' (eq_sym Eq)). congruence.
            -- assert (Hne : dk m <> dk m') by (intros X; apply keq_spec in X; congruence).
               rewrite cget_save_other in He by congruence. rewrite cget_setk in He.
               destruct (I m' Hm' e He) as (v' & b' & E1 & E2 & E3). exists v', b'. split; [exact E1|]. split; [exact E2|].
               intros Hf'. destruct (E3 Hf') as [X Y]. split.
               ++ cbn [M_CiBase.csave ckof]. rewrite (Hother m' Hm' e He). exact X.
               ++ rewrite !cget_save_other by congruence. exact Y.
        + cbn [fst snd]. split; [reflexivity|]. intros m' Hm' e He. rewrite cget_setk in He.
          destruct (I m' Hm' e He) as (v' & b' & E1 & E2 & E3). exists v', b'. split; [exact E1|]. split; [exact E2|].
          intros Hf'. rewrite (Hother m' Hm' e He), cget_setk. exact (E3 Hf').
    Qed.
    Lemma list_ok l : incl l ms -> forall st, Inv st ->
      fst (ci_list comp keq l sb parent st) = map (fun m => alone comp m (dk m)) l.
    Proof.
      induction l as [|m l IH]; intros Hi st I; [reflexivity|]. cbn [ci_list map].
      destruct (call_ok m st (Hi m (or_introl eq_refl)) I) as [E I1].
      destruct (ci_compute comp keq m sb (Some (KKey parent)) st) as [r st1]. cbn [fst snd] in E, I1.
      specialize (IH (fun x Hx => Hi x (or_intror Hx)) st1 I1).
      destruct (ci_list comp keq l sb parent st1) as [rs st2]. cbn [fst] in *. rewrite E, IH. reflexivity.
    Qed.
  End Round.

  (** Two instances that are equal. *)
  Lemma second_instance m1 m2 sb parent v b (ks : nat -> option ckey) : normal_slice parent ->
    ci_id m1 <> ci_id m2 -> ci_fp m1 = ci_fp m2 -> ci_where m1 = ci_where m2 -> ci_conf m1 = true -> ci_conf m2 = true ->
    ks (ci_id m2) = None -> comp (data_key parent sb m1) = Ok (v, b) ->
    fst (ci_list comp keq [m1; m2] sb parent (CSt [] ks)) =
    [Ok (v, Some b);
     if keq (data_key parent sb m1) (CKey (ci_fp m2) None (to_set (ci_where m2)) [] []) then Ok (v, Some b) else Err "KeyError"].
  Proof.
    intros Hs Hi Hf Hw H1 H2 Hk Hc. cbn [ci_list]. unfold ci_compute at 1. rewrite (wrap_child m1 _ parent sb Hs).
    cbn [M_CiBase.cget cdict find option_map]. rewrite Hc. unfold ci_manipulate. rewrite H1.
    assert (Ek : ckof (csave (data_key parent sb m1, false) (ERes v) (csetk (ci_id m1) (data_key parent sb m1) (@CSt V B [] ks))) (ci_id m1)
       = Some (data_key parent sb m1)) by (cbn [M_CiBase.csave csetk ckof]; rewrite Nat.eqb_refl; reflexivity).
    rewrite Ek, (wrap_base m1 parent sb Hs).
    set (st2 := csave (data_key parent sb m1, true) (EBase b) _).
    assert (Ed : data_key parent sb m2 = data_key parent sb m1) by (unfold data_key; rewrite Hf, Hw; reflexivity).
    unfold ci_compute. rewrite (wrap_child m2 _ parent sb Hs), Ed.
    assert (G : cget (data_key parent sb m1, false) st2 = Some (ERes v)).
    { unfold st2. rewrite cget_save_other by congruence. apply cget_save_same. }
    rewrite G. unfold ci_manipulate. rewrite H2.
    assert (Ek2 : ckof st2 (ci_id m2) = None).
    { unfold st2. cbn [M_CiBase.csave csetk ckof]. destruct (Nat.eqb (ci_id m1) (ci_id m2)) eqn:E; [apply Nat.eqb_eq in E; congruence|exact Hk]. }
    rewrite Ek2. unfold ci_wrap at 1. cbn [option_map por truthy ci_new_key].
    destruct (keq (data_key parent sb m1) (CKey (ci_fp m2) None (to_set (ci_where m2)) [] [])) eqn:Eq.
    - apply keq_spec in Eq. rewrite <- Eq. unfold st2 at 1. rewrite cget_save_same. reflexivity.
    - assert (Gn : cget (CKey (ci_fp m2) None (to_set (ci_where m2)) [] [], true) st2 = None).
      { assert (Hne : data_key parent sb m1 <> CKey (ci_fp m2) None (to_set (ci_where m2)) [] []) by (intros X; apply keq_spec in X; congruence).
        unfold st2. rewrite cget_save_other by congruence. rewrite cget_save_other by congruence. reflexivity. }
      rewrite Gn. reflexivity.
  Qed.

  Lemma compute_miss m sb ck st key bkey v b : ci_conf m = true ->
    ci_wrap m (ckof st (ci_id m)) (por ck (option_map KKey (ckof st (ci_id m)))) sb = Ok key ->
    cget (key, false) st = None -> comp key = Ok (v, b) -> ci_wrap m (Some key) (Some (KKey key)) [] = Ok bkey ->
    ci_compute comp keq m sb ck st =
      (Ok (v, Some b), csave (bkey, true) (EBase b) (csave (key, false) (ERes v) (csetk (ci_id m) key st))).
  Proof.
    intros Hf Hw Hg Hc Hb. unfold ci_compute. rewrite Hw, Hg, Hc. unfold ci_manipulate. rewrite Hf.
    assert (E : ckof (csave (key, false) (ERes v) (csetk (ci_id m) key st)) (ci_id m) = Some key)
      by (cbn [M_CiBase.csave csetk ckof]; rewrite Nat.eqb_refl; reflexivity).
    rewrite E. cbn [option_map]. rewrite Hb. reflexivity.
  Qed.
  Lemma compute_hit m sb ck st key k bkey v b : ci_conf m = true ->
    ci_wrap m (ckof st (ci_id m)) (por ck (option_map KKey (ckof st (ci_id m)))) sb = Ok key ->
    cget (key, false) st = Some (ERes v) -> ckof st (ci_id m) = Some k -> ci_wrap m (Some k) (Some (KKey k)) [] = Ok bkey ->
    cget (bkey, true) st = Some (EBase b) ->
    ci_compute comp keq m sb ck st = (Ok (v, Some b), st).
  Proof.
    intros Hf Hw Hg Hk Hb Hg2. unfold ci_compute. rewrite Hw, Hg. unfold ci_manipulate. rewrite Hf, Hk. cbn [option_map].
    rewrite Hb, Hg2. reflexivity.
  Qed.
  Lemma ckof_saved i k k1 k2 e1 e2 (st : cst) : ckof (csave k1 e1 (csave k2 e2 (csetk i k st))) i = Some k.
  Proof. cbn [M_CiBase.csave csetk ckof]. rewrite Nat.eqb_refl. reflexivity. Qed.
End P.
