(** The cached evaluation computes the value of the metric: proofs. *)
From Coq Require Import List String ZArith QArith Bool Permutation Lia.
From Verif Require Import M_Metric M_Cache S_Cache L_Fp.
Import ListNotations.
Open Scope string_scope.
Open Scope list_scope.

(** ** Sets, dicts and slices *)
Lemma set_ins_in x y l : In y (set_ins x l) <-> y = x \/ In y l.
Proof.
  induction l as [|z l IH]; simpl; [intuition|].
  destruct (String.eqb x z) eqn:E; [apply String.eqb_eq in E; subst; simpl; intuition|].
  destruct (str_gtb x z); simpl; rewrite ?IH; intuition.
Qed.
Lemma to_set_in y l : In y (to_set l) <-> In y l.
Proof. induction l as [|x l IH]; simpl; [tauto|]. rewrite set_ins_in, IH. intuition. Qed.

Lemma existsb_incl {A} (f : A -> bool) l1 l2 : incl l1 l2 -> existsb f l2 = false -> existsb f l1 = false.
Proof.
  intros Hi H. destruct (existsb f l1) eqn:E; [|reflexivity]. apply existsb_exists in E.
  destruct E as (x & Hx & Hf). rewrite <- H. symmetry. apply existsb_exists. eauto.
Qed.
Lemma forallb_same {A} (f : A -> bool) l1 l2 : (forall x, In x l1 <-> In x l2) -> forallb f l1 = forallb f l2.
Proof.
  intros Hi. apply eq_true_iff_eq. rewrite !forallb_forall. split; intros H x Hx; apply H, Hi, Hx.
Qed.
Lemma existsb_same {A} (f : A -> bool) l1 l2 : (forall x, In x l1 <-> In x l2) -> existsb f l1 = existsb f l2.
Proof.
  intros Hi. apply eq_true_iff_eq. rewrite !existsb_exists. split; intros (x & Hx & H); exists x; split; auto; apply Hi, Hx.
Qed.
Lemma forallb_app' {A} (f : A -> bool) l1 l2 : forallb f (l1 ++ l2) = forallb f l1 && forallb f l2.
Proof. induction l1; simpl; auto. rewrite IHl1. apply andb_assoc. Qed.
Lemma filter_filter {A} (f g : A -> bool) l : filter f (filter g l) = filter (fun x => g x && f x) l.
Proof. induction l as [|x l IH]; simpl; auto. destruct (g x); simpl; [destruct (f x); congruence|exact IH]. Qed.

Lemma pair_ins_perm x l : Permutation (pair_ins x l) (x :: l).
Proof.
  induction l as [|y l IH]; simpl; [auto|]. destruct str_gtb; auto. rewrite IH. apply perm_swap.
Qed.
Lemma pair_sort_perm l : Permutation (pair_sort l) l.
Proof. induction l as [|x l IH]; simpl; [auto|]. rewrite pair_ins_perm, IH. reflexivity. Qed.

Lemma assoc_none {A} k (l : list (string * A)) : ~ In k (map fst l) -> assoc k l = None.
Proof.
  induction l as [|[k' v] l IH]; simpl; [auto|]. intros H. destruct (String.eqb k k') eqn:E.
  - apply String.eqb_eq in E. subst. tauto.
  - apply IH. tauto.
Qed.
Lemma dict_of_nodup l : NoDup (map fst l) -> dict_of l = l.
Proof.
  induction l as [|[k v] l IH]; simpl; [auto|]. intros H. inversion H; subst.
  rewrite IH by assumption. rewrite assoc_none by assumption. reflexivity.
Qed.
Lemma merge_slice_disjoint old : forall new, NoDup (map fst old) ->
  (forall c, In c (map fst old) -> ~ In c (map fst new)) -> merge_slice new old = Ok (new ++ old).
Proof.
  induction old as [|[k v] old IH]; simpl; intros new Hn Hd; [rewrite app_nil_r; reflexivity|].
  inversion Hn; subst. rewrite assoc_none by (apply Hd; auto).
  rewrite IH; [rewrite <- app_assoc; reflexivity|assumption|].
  intros c Hc. rewrite map_app, in_app_iff. simpl. intros [H|[->|[]]]; [apply (Hd c); auto|auto].
Qed.
Lemma map_fst_combine {A B} (l1 : list A) (l2 : list B) : List.length l2 = List.length l1 -> map fst (combine l1 l2) = l1.
Proof. revert l2. induction l1; intros [|b l2]; simpl; intros H; try discriminate; auto. f_equal. auto. Qed.

Lemma NoDup_app_intro {A} (l1 l2 : list A) : NoDup l1 -> NoDup l2 -> (forall x, In x l1 -> ~ In x l2) -> NoDup (l1 ++ l2).
Proof.
  induction 1 as [|x l1 Hx H1 IH]; simpl; intros H2 Hd; [auto|]. constructor.
  - rewrite in_app_iff. intros [H|H]; [auto|apply (Hd x); auto].
  - apply IH; auto.
Qed.

Section Proofs.
  Context {V : Type} (S : sem V) (L : laws S) (keq : ckey -> ckey -> bool) (Hh : forall k1 k2, keq k1 k2 = true -> k1 = k2).
  (** The data a raw key stands for. *)
  Variable dfof : option raw -> frame.
  Notation state := (@state V).

  Definition dfk (k : ckey) : frame :=
    filter (fun r => forallb (fun c => q S c r) (k_where k) &&
                     forallb (fun cv => cell_eqb (r (fst cv)) (snd cv)) (k_slice k)) (dfof (k_raw k)).
  Definition memb (l : list string) (x : string) : bool := existsb (String.eqb x) l.
  Lemma memb_in l x : memb l x = true <-> In x l.
  Proof.
    unfold memb. rewrite existsb_exists. split.
    - intros (y & Hy & E). apply String.eqb_eq in E. congruence.
    - intros H. exists x. split; auto. apply String.eqb_refl.
  Qed.
  Definition actual (k : ckey) : list string :=
    if forallb (memb (map fst (k_slice k))) (k_split k) then [] else k_split k.

  Definition entry_ok (e : ckey * ret V) : Prop :=
    existsb (qbad S) (k_where (fst e)) = false /\
    forall m, cacheable m -> fp0 m = k_fp (fst e) -> den S (unfilter m) (dfk (fst e)) (actual (fst e)) = Ok (snd e).
  Definition Inv (st : state) : Prop := Forall entry_ok (cache st).

  Lemma lookup_ok k st r : Inv st -> lookup keq k st = Some r -> entry_ok (k, r).
  Proof.
    unfold lookup, Inv. intros HI H. destruct (find _ (cache st)) as [[k' r']|] eqn:E; [|discriminate].
    injection H as <-. apply find_some in E. destruct E as [Hin E]. simpl in *.
    apply Hh in E. subst. rewrite Forall_forall in HI. apply HI, Hin.
  Qed.
  Lemma put_ok k v l : Forall entry_ok l -> entry_ok (k, v) -> Forall entry_ok (put keq k v l).
  Proof.
    intros HI He. induction l as [|e l IH]; simpl; [auto|]. inversion HI; subst.
    destruct (keq (fst e) k) eqn:E; [|auto]. constructor; auto. apply Hh in E. rewrite E. exact He.
  Qed.

  Lemma den_unfilter i k w cs df sb :
    den S (Node i k w cs) df sb = rbind (query S w df) (fun d => den S (Node i k [] cs) d sb).
  Proof.
    cbn [den]. apply rbind_ext. intros d. rewrite query_nil. reflexivity.
  Qed.

  (** ** Contexts *)
  Record good (k : ckey) (df : frame) (sb D : list string) : Prop := Good {
    g_ok : existsb (qbad S) (k_where k) = false;
    g_df : dfk k = df;
    g_dom : forall c, In c (map fst (k_slice k)) <-> In c D;
    g_nodup : NoDup (map fst (k_slice k));
    g_split : sb = [] -> incl (k_split k) D;
    g_split' : sb <> [] -> k_split k = sb
  }.

  Lemma actual_good k df sb D : good k df sb D -> (forall c, In c sb -> ~ In c D) -> actual k = sb.
  Proof.
    intros G Hf. unfold actual. destruct sb as [|x sb].
    - assert (E : forallb (memb (map fst (k_slice k))) (k_split k) = true).
      { apply forallb_forall. intros c Hc. apply memb_in, (g_dom _ _ _ _ G), (g_split _ _ _ _ G eq_refl), Hc. }
      rewrite E. reflexivity.
    - rewrite (g_split' _ _ _ _ G) by discriminate.
      assert (E : forallb (memb (map fst (k_slice k))) (x :: sb) = false).
      { simpl. destruct (memb _ x) eqn:E; [|reflexivity]. exfalso. apply memb_in, (g_dom _ _ _ _ G) in E.
        apply (Hf x); simpl; auto. }
      rewrite E. reflexivity.
  Qed.

  Lemma query_ok w df d : query S w df = Ok d ->
    existsb (qbad S) w = false /\ d = filter (fun r => forallb (fun c => q S c r) w) df.
  Proof. unfold query. destruct existsb; [discriminate|]. intros H. injection H as <-. auto. Qed.

  (** Wrapping a key for the same slice: filters accumulate. *)
  Lemma new_key_good m k w df sb D sb' d : good k df sb D -> query S w df = Ok d -> (sb' = [] -> sb = []) ->
    exists k', new_key m (Some (KKey k)) w sb' [] = Ok k' /\ k_fp k' = fp0 m /\ good k' d sb' D.
  Proof.
    intros G Hq Hsb. unfold new_key.
    rewrite merge_slice_disjoint; [|apply (g_nodup _ _ _ _ G)|simpl; auto]. simpl.
    eexists; split; [reflexivity|]. split; [reflexivity|]. apply query_ok in Hq. destruct Hq as [Hw ->].
    constructor; simpl.
    - rewrite (existsb_same _ _ (k_where k ++ w)) by (intros; apply to_set_in).
      rewrite existsb_app, (g_ok _ _ _ _ G), Hw. reflexivity.
    - unfold dfk. simpl. rewrite <- (g_df _ _ _ _ G). unfold dfk. rewrite filter_filter.
      apply filter_ext. intros r.
      rewrite (forallb_same _ _ (k_where k ++ w)) by (intros; apply to_set_in).
      rewrite (forallb_perm _ _ _ (pair_sort_perm (k_slice k))), forallb_app'.
      rewrite <- !andb_assoc. f_equal. apply andb_comm.
    - intros c. rewrite <- (g_dom _ _ _ _ G c). split; intros H.
      + apply (Permutation_in _ (Permutation_map fst (pair_sort_perm (k_slice k)))), H.
      + apply (Permutation_in _ (Permutation_map fst (Permutation_sym (pair_sort_perm (k_slice k))))), H.
    - apply (Permutation_NoDup (Permutation_map fst (Permutation_sym (pair_sort_perm (k_slice k))))), (g_nodup _ _ _ _ G).
    - intros ->. apply (g_split _ _ _ _ G). auto.
    - destruct sb'; [congruence|reflexivity].
  Qed.

  (** Wrapping a key for one slice of the data. *)
  Lemma new_key_slice m k w df sb D vals : good k df sb D -> sb <> [] -> NoDup sb -> (forall c, In c sb -> ~ In c D) ->
    query S w df = Ok df -> List.length vals = List.length sb ->
    exists k', new_key m (Some (KKey k)) w [] (dict_of (combine sb vals)) = Ok k' /\
               good k' (slice df sb vals) [] (D ++ sb).
  Proof.
    intros G Hne Hn Hf Hq Hl. pose proof (map_fst_combine sb vals Hl) as Hm.
    rewrite dict_of_nodup by (rewrite Hm; exact Hn). unfold new_key.
    rewrite merge_slice_disjoint; [|apply (g_nodup _ _ _ _ G)|].
    2: { intros c Hc Hc'. rewrite Hm in Hc'. apply (g_dom _ _ _ _ G) in Hc. apply (Hf c); auto. }
    simpl. eexists; split; [reflexivity|]. apply query_ok in Hq. destruct Hq as [Hw Hwf].
    set (sl := combine sb vals ++ k_slice k).
    assert (Hdom : forall c, In c (map fst sl) <-> In c (D ++ sb)).
    { intros c. unfold sl. rewrite map_app, Hm, !in_app_iff, (g_dom _ _ _ _ G c). tauto. }
    constructor; simpl.
    - rewrite (existsb_same _ _ (k_where k ++ w)) by (intros; apply to_set_in).
      rewrite existsb_app, (g_ok _ _ _ _ G), Hw. reflexivity.
    - unfold dfk, slice. simpl. rewrite Hwf. rewrite <- (g_df _ _ _ _ G). unfold dfk. rewrite !filter_filter.
      apply filter_ext. intros r.
      rewrite (forallb_same _ _ (k_where k ++ w)) by (intros; apply to_set_in).
      rewrite (forallb_perm _ _ _ (pair_sort_perm sl)). unfold sl. rewrite !forallb_app'.
      destruct (forallb _ (k_where k)), (forallb _ w), (forallb _ (k_slice k)), (forallb _ (combine sb vals)); reflexivity.
    - intros c. rewrite <- Hdom. split; intros H.
      + apply (Permutation_in _ (Permutation_map fst (pair_sort_perm sl))), H.
      + apply (Permutation_in _ (Permutation_map fst (Permutation_sym (pair_sort_perm sl)))), H.
    - apply (Permutation_NoDup (Permutation_map fst (Permutation_sym (pair_sort_perm sl)))).
      unfold sl. rewrite map_app, Hm. apply NoDup_app_intro; auto; [apply (g_nodup _ _ _ _ G)|].
      intros c H1 H2. apply (g_dom _ _ _ _ G) in H2. apply (Hf c); auto.
    - intros _. rewrite (g_split' _ _ _ _ G Hne). intros c Hc. apply in_app_iff. auto.
    - congruence.
  Qed.

  (** ** Programs that compute a known result and keep a property of the state *)
  Definition computes {A} (P : state -> Prop) (x : @M V A) (r : res A) : Prop :=
    forall st, P st -> exists st', x st = (r, st') /\ P st'.

  Lemma c_ret {A} P (r : res A) : computes P (mret r) r.
  Proof. intros st H. exists st. auto. Qed.
  Lemma c_bind {A B} P (x : @M V A) (f : A -> @M V B) r g :
    computes P x r -> (forall a, r = Ok a -> computes P (f a) (g a)) -> computes P (mbind x f) (rbind r g).
  Proof.
    intros Hx Hf st H. destruct (Hx st H) as (st1 & E & H1). unfold mbind. rewrite E.
    destruct r as [a|e]; simpl; [apply Hf; auto|]. exists st1. auto.
  Qed.
  Lemma c_mapM {A B} P (f : A -> @M V B) (g : A -> res B) l :
    (forall x, In x l -> computes P (f x) (g x)) -> computes P (mmapM f l) (rmapM g l).
  Proof.
    induction l as [|x l IH]; intros H; [apply c_ret|]. simpl.
    apply c_bind; [apply H; simpl; auto|]. intros a _. apply c_bind; [apply IH; intros; apply H; simpl; auto|].
    intros; apply c_ret.
  Qed.
  Lemma c_collect {A B} P (f : A -> @M V B) (g : A -> res B) l :
    (forall x, In x l -> computes P (f x) (g x)) ->
    computes P (mcollect f l) (Ok (flat_map (fun x => match g x with Ok r => [r] | Err _ => [] end) l)).
  Proof.
    induction l as [|x l IH]; intros H; [apply c_ret|]. intros st Hst. simpl.
    destruct (H x (or_introl eq_refl) st Hst) as (st1 & E & H1). rewrite E.
    assert (IH' := IH (fun y Hy => H y (or_intror Hy))).
    destruct (g x) as [r|e]; [|apply IH'; auto].
    destruct (IH' st1 H1) as (st2 & E2 & H2). unfold mbind. rewrite E2. exists st2. auto.
  Qed.

  (** ** The main induction *)
  (** Evaluating [m] in a slice with columns [D], on data [df] split by [sb], given a key of the parent. *)
  Definition correct (m : metric) : Prop := forall D df sb rdf ck st,
    cacheable m -> acyclic m -> fresh_splits D sb m -> good ck df sb D -> Inv st ->
    exists st', run S keq m df sb rdf (Some (KKey ck)) st = (value S m df sb rdf, st') /\ Inv st' /\
                (forall j, ~ In j (oids m) -> kof st' j = kof st j).

  Definition PS (i : nat) (key : ckey) (O : list nat) (st0 : state) (st : state) : Prop :=
    Inv st /\ kof st i = Some key /\ (forall j, ~ In j O -> kof st j = kof st0 j).

  Lemma mwrap_some m i key k sb sl k' (st : state) : kof st i = Some key ->
    new_key m (Some (KKey key)) (match m with Node _ _ w _ => w | _ => [] end) sb sl = Ok k' ->
    k = None \/ k = Some (KKey key) ->
    mwrap m i k sb sl st = (Ok k', st).
  Proof.
    intros E H [->| ->]; unfold mwrap; rewrite E; f_equal; exact H.
  Qed.

  Lemma util_computes i k w cs key d sb D O st0 c sb' rdf' :
    In c cs -> correct c -> cacheable c -> acyclic c -> fresh_splits D sb' c ->
    good key d sb D -> query S w d = Ok d -> (sb' = [] -> sb = []) ->
    ~ In i (oids c) -> incl (oids c) O ->
    computes (PS i key O st0)
      (mbind (mwrap (Node i k w cs) i None sb' []) (fun ck => run S keq c d sb' rdf' (Some (KKey ck))))
      (value S c d sb' rdf').
  Proof.
    intros Hc Cc Kc Ac Fc G Hq Hsb Hi Ho st (HI & Hk & Hfr).
    destruct (new_key_good (Node i k w cs) key w d sb D sb' d G Hq Hsb) as (k' & E & _ & G').
    unfold mbind. rewrite (mwrap_some _ _ _ _ _ _ _ _ Hk E (or_introl eq_refl)).
    destruct (Cc D d sb' rdf' k' st Kc Ac Fc G' HI) as (st' & E' & HI' & Hfr').
    exists st'. split; [exact E'|]. split; [exact HI'|]. split.
    - rewrite Hfr' by exact Hi. exact Hk.
    - intros j Hj. rewrite Hfr' by (intros X; apply Hj, Ho, X). apply Hfr, Hj.
  Qed.

  Lemma cacheable_children i k w cs : cacheable (Node i k w cs) -> Forall cacheable cs.
  Proof.
    intros (B & M & U). apply every_node in B, M, U. destruct B as [_ B], M as [_ M], U as [_ U].
    induction cs; constructor; inversion B; inversion M; inversion U; subst; [repeat split; auto|apply IHcs; auto].
  Qed.
  Lemma acyclic_children i k w cs : acyclic (Node i k w cs) ->
    Forall acyclic cs /\ forall c, In c cs -> ~ In i (oids c) /\ incl (oids c) (i :: flat_map oids cs).
  Proof.
    intros A. apply every_node in A. destruct A as [Hi A]. split; [exact A|]. intros c Hc. split.
    - intros X. apply Hi. apply in_flat_map. eauto.
    - intros j Hj. right. apply in_flat_map. eauto.
  Qed.

  (** The body of the computation, once the key is stored in the object. *)
  Lemma body_computes i k w cs key df d sb D O st0 :
    Forall correct cs -> cacheable (Node i k w cs) -> acyclic (Node i k w cs) ->
    fresh_splits D sb (Node i k w cs) -> good key d sb D -> query S w df = Ok d ->
    O = oids (Node i k w cs) ->
    let m := Node i k w cs in
    let util c d sb' rdf' := mbind (mwrap m i None sb' []) (fun key => run S keq c d sb' rdf' (Some (KKey key))) in
    computes (PS i key O st0)
      (match k with
          | KLeaf l => mret (lsem S l d sb)
          | KComp b =>
              mbind (mmapM (fun c => match c with
                                     | Const z => mret (Ok (CC z))
                                     | _ => mbind (util c d sb (is_list c)) (fun r => mret (Ok (CV r)))
                                     end) cs)
                    (fun args => match args with
                                 | [a; b'] => mret (csem S b a b' sb)
                                 | _ => mret (Err "CompositeMetric can only have two children.")
                                 end)
          | KList crd =>
              mbind (mcollect (fun c => util c d sb crd) cs) (fun l => mret (Ok (RL l)))
          | KOp o ex exi =>
              match cs with
              | [c] => mbind (util c d (sb ++ ex) true) (fun r => mret (osem S o ex exi r sb))
              | _ => mret (Err "We can only handle one child Metric!")
              end
          | KCustom u =>
              match cs with
              | [c] =>
                  let one d := mbind (util c d [] true) (fun r => mret (usem S u i r)) in
                  match sb with
                  | [] => one d
                  | _ =>
                      mbind (mmapM (fun vals =>
                               mbind mget (fun st0 =>
                               let old := kof st0 i in
                               mbind (mwrap m i (option_map KKey old) [] (dict_of (combine sb vals))) (fun key =>
                               mbind (mupd (setk i (Some key))) (fun _ =>
                               finally (mbind (one (slice d sb vals)) (fun r => mret (Ok (vals, r))))
                                       (setk i old)))))
                             (groups S d sb))
                            (fun parts => mret (asm S sb parts))
                  end
              | _ => mret (Err "We can only handle one child Metric!")
              end
       end) (den S (Node i k [] cs) d sb).
  Proof.
    intros Cs Kc Ac Fr G Hq -> m util.
    pose proof (cacheable_children _ _ _ _ Kc) as Kcs. destruct (acyclic_children _ _ _ _ Ac) as [Acs Hos].
    rewrite Forall_forall in Cs, Kcs, Acs.
    assert (Hqd : query S w d = Ok d).
    { destruct (query_ok _ _ _ Hq) as [Hw ->]. unfold query. rewrite Hw. f_equal. rewrite filter_filter.
      apply filter_ext. intros r. apply andb_diag. }
    assert (U : forall c sb' rdf', In c cs -> fresh_splits D sb' c -> (sb' = [] -> sb = []) ->
              computes (PS i key (oids (Node i k w cs)) st0) (util c d sb' rdf') (value S c d sb' rdf')).
    { intros c sb' rdf' Hc Hf Hsb. destruct (Hos c Hc). eapply util_computes; eauto. }
    cbn [den]. rewrite query_nil. cbn [rbind].
    destruct k as [l|b|crd|o ex exi|u].
    - apply c_ret.
    - destruct Fr as (_ & _ & Fr). apply fold_and in Fr. rewrite Forall_forall in Fr.
      apply c_bind.
      + apply c_mapM. intros c Hc. destruct c as [z|]; [apply c_ret|].
        change (rbind (den S (Node oid k w0 children) d sb) (manip S (is_list (Node oid k w0 children))))
          with (value S (Node oid k w0 children) d sb (is_list (Node oid k w0 children))).
        apply c_bind; [apply U; auto|intros; apply c_ret].
      + intros args _. destruct args as [|a1 [|a2 [|a3 args]]]; apply c_ret.
    - destruct Fr as (_ & _ & Fr). apply fold_and in Fr. rewrite Forall_forall in Fr.
      change (Ok (RL (flat_map (fun c => match rbind (den S c d sb) (manip S crd) with Ok r => [r] | Err _ => [] end) cs)))
        with (rbind (Ok (flat_map (fun c => match value S c d sb crd with Ok r => [r] | Err _ => [] end) cs)) (fun l => Ok (RL l))).
      apply c_bind; [|intros; apply c_ret]. apply (c_collect _ (fun c => util c d sb crd) (fun c => value S c d sb crd)).
      intros c Hc. apply U; auto.
    - destruct Fr as (_ & _ & Fr). apply fold_and in Fr. rewrite Forall_forall in Fr.
      destruct cs as [|c [|c2 cs]]; try apply c_ret.
      apply (c_bind _ _ _ (value S c d (sb ++ ex) true)); [apply U; [simpl; auto|apply Fr; simpl; auto|]|intros; apply c_ret].
      intros H. apply app_eq_nil in H. tauto.
    - destruct Fr as (Hnd & Hfs & Fr). apply fold_and in Fr. rewrite Forall_forall in Fr.
      destruct cs as [|c [|c2 cs]]; try apply c_ret.
      specialize (Fr c (or_introl eq_refl)).
      destruct sb as [|s0 sb0].
      + cbn zeta. rewrite app_nil_r in Fr.
        apply (c_bind _ _ _ (value S c d [] true)); [apply U; simpl; auto|intros; apply c_ret].
      + set (sb := s0 :: sb0) in *. cbn zeta.
        apply c_bind; [|intros; apply c_ret]. apply c_mapM. intros vals Hv.
        pose proof (groups_length S L _ _ _ Hv) as Hl.
        intros st (HI & Hk & Hfr). unfold mbind at 1, mget. rewrite Hk. cbn [option_map].
        destruct (new_key_slice m key w d sb D vals G ltac:(discriminate) Hnd Hfs Hqd Hl) as (k2 & E2 & G2).
        unfold mbind at 1. rewrite (mwrap_some m i key _ [] _ k2 st Hk E2 (or_intror eq_refl)).
        unfold mbind at 1, mupd.
        destruct (Hos c (or_introl eq_refl)) as [Hi Ho].
        assert (Hq2 : query S w (slice d sb vals) = Ok (slice d sb vals)).
        { destruct (query_ok _ _ _ Hqd) as [Hw Hd]. unfold query. rewrite Hw. f_equal.
          unfold slice. rewrite Hd at 2. rewrite !filter_filter. rewrite Hd. rewrite !filter_filter.
          apply filter_ext. intros r. destruct (forallb (fun c0 => q S c0 r) w), (forallb _ (combine sb vals)); reflexivity. }
        assert (C2 : computes (PS i k2 (oids m) st0)
                  (mbind (mbind (util c (slice d sb vals) [] true) (fun r => mret (usem S u i r))) (fun r => mret (Ok (vals, r))))
                  (rbind (rbind (value S c (slice d sb vals) [] true) (usem S u i)) (fun r => Ok (vals, r)))).
        { apply c_bind; [apply c_bind; [|intros; apply c_ret]|intros; apply c_ret].
          assert (Hc1 : In c [c]) by (simpl; auto).
          apply (util_computes i (KCustom u) w [c] k2 (slice d sb vals) [] (D ++ sb) (oids m) st0 c [] true Hc1
                   (Cs c Hc1) (Kcs c Hc1) (Acs c Hc1) Fr G2 Hq2 (fun H => H) Hi Ho). }
        destruct (C2 (setk i (Some k2) st)) as (st' & E' & HI' & Hk' & Hfr').
        { split; [exact HI|]. simpl. rewrite Nat.eqb_refl. split; [reflexivity|].
          intros j Hj. destruct (Nat.eqb i j) eqn:Ej; [|apply Hfr, Hj].
          apply Nat.eqb_eq in Ej. subst. exfalso. apply Hj. simpl. auto. }
        unfold finally. rewrite E'. eexists; split; [reflexivity|]. split; [exact HI'|]. simpl. rewrite Nat.eqb_refl.
        split; [reflexivity|]. intros j Hj. destruct (Nat.eqb i j) eqn:Ej; [|apply Hfr', Hj].
        apply Nat.eqb_eq in Ej. subst. exfalso. apply Hj. simpl. auto.
  Qed.

  (** One call, given the key that wraps the caller's and the object's own. *)
  Definition finish (m : metric) (ck : option karg) : state -> state :=
    match ck with None => cleanup m | Some _ => fun st => st end.

  Lemma run_key i k w cs D df sb rdf ck (st : state) base :
    Forall correct cs ->
    cacheable (Node i k w cs) -> acyclic (Node i k w cs) -> fresh_splits D sb (Node i k w cs) ->
    good base df sb D -> Inv st ->
    wrap (Node i k w cs) (kof st i) (por ck (option_map KKey (kof st i))) sb [] =
      new_key (Node i k w cs) (Some (KKey base)) w sb [] ->
    exists st', run S keq (Node i k w cs) df sb rdf ck st =
                  (value S (Node i k w cs) df sb rdf, finish (Node i k w cs) ck st') /\ Inv st' /\
                (forall j, ~ In j (oids (Node i k w cs)) -> kof st' j = kof st j) /\
                (kof st' i = kof st i \/ exists key, kof st' i = Some key /\
                   new_key (Node i k w cs) (Some (KKey base)) w sb [] = Ok key).
  Proof.
    intros Cs Kc Ac Fr G HI Hwrap.
    assert (Hw : exists key, new_key (Node i k w cs) (Some (KKey base)) w sb [] = Ok key).
    { unfold new_key. rewrite merge_slice_disjoint; [|apply (g_nodup _ _ _ _ G)|simpl; auto]. simpl. eauto. }
    destruct Hw as [key Hkey].
    assert (Hfield : existsb (qbad S) w = true -> existsb (qbad S) (k_where key) = true).
    { intros E. unfold new_key in Hkey. rewrite merge_slice_disjoint in Hkey; [|apply (g_nodup _ _ _ _ G)|simpl; auto].
      simpl in Hkey. injection Hkey as <-. simpl.
      rewrite (existsb_same _ _ (k_where base ++ w)) by (intros; apply to_set_in).
      rewrite existsb_app, E. apply orb_true_r. }
    assert (Hfresh : forall c, In c sb -> ~ In c D) by (destruct Fr as (_ & X & _); exact X).
    (* the part between wrapping the key and naming *)
    assert (Hmain : exists st' r, 
      (match lookup keq key st with
       | Some r => mret (Ok r)
       | None => mbind (mupd (setk i (Some key))) (fun _ =>
                 mbind (mbind (mret (query S w df)) (fun df' => 
                    let m := Node i k w cs in
                    let util c d sb' rdf' := mbind (mwrap m i None sb' []) (fun key => run S keq c d sb' rdf' (Some (KKey key))) in
                    match k with
                    | KLeaf l => mret (lsem S l df' sb)
                    | KComp b =>
                        mbind (mmapM (fun c => match c with
                                     | Const z => mret (Ok (CC z))
                                     | _ => mbind (util c df' sb (is_list c)) (fun r => mret (Ok (CV r)))
                                     end) cs)
                    (fun args => match args with
                                 | [a; b'] => mret (csem S b a b' sb)
                                 | _ => mret (Err "CompositeMetric can only have two children.")
                                 end)
                    | KList crd =>
                        mbind (mcollect (fun c => util c df' sb crd) cs) (fun l => mret (Ok (RL l)))
                    | KOp o ex exi =>
                        match cs with
                        | [c] => mbind (util c df' (sb ++ ex) true) (fun r => mret (osem S o ex exi r sb))
                        | _ => mret (Err "We can only handle one child Metric!")
                        end
                    | KCustom u =>
                        match cs with
                        | [c] =>
                            let one d := mbind (util c d [] true) (fun r => mret (usem S u i r)) in
                            match sb with
                            | [] => one df'
                            | _ =>
                                mbind (mmapM (fun vals =>
                                         mbind mget (fun st0 =>
                                         let old := kof st0 i in
                                         mbind (mwrap m i (option_map KKey old) [] (dict_of (combine sb vals))) (fun key =>
                                         mbind (mupd (setk i (Some key))) (fun _ =>
                                         finally (mbind (one (slice df' sb vals)) (fun r => mret (Ok (vals, r))))
                                                 (setk i old)))))
                                       (groups S df' sb))
                                      (fun parts => mret (asm S sb parts))
                            end
                        | _ => mret (Err "We can only handle one child Metric!")
                        end
                    end)) (fun r =>
                 mbind (mupd (save keq key r)) (fun _ => mret (Ok r))))
       end) st = (r, st') /\ r = den S (Node i k w cs) df sb /\ Inv st' /\
       (forall j, ~ In j (oids (Node i k w cs)) -> kof st' j = kof st j) /\
       (kof st' i = kof st i \/ kof st' i = Some key)).
    { destruct (lookup keq key st) as [r|] eqn:El.
      - exists st, (Ok r). split; [reflexivity|]. split; [|auto].
        pose proof (lookup_ok _ _ _ HI El) as [Hg He].
        rewrite den_unfilter. simpl in Hg.
        assert (Hq : exists d, query S w df = Ok d).
        { unfold query. destruct (existsb (qbad S) w) eqn:E; [|eauto]. rewrite (Hfield eq_refl) in Hg. discriminate. }
        destruct Hq as [d Hq]. rewrite Hq. cbn [rbind].
        destruct (new_key_good (Node i k w cs) base w df sb D sb d G Hq (fun x => x)) as (key' & E & Hf & G').
        rewrite Hkey in E. injection E as <-.
        specialize (He (Node i k w cs) Kc (eq_sym Hf)). simpl in He.
        rewrite (g_df _ _ _ _ G'), (actual_good _ _ _ _ G' Hfresh) in He. auto.
      - unfold mbind at 1, mupd.
        assert (Hset : forall j, ~ In j (oids (Node i k w cs)) -> kof (setk i (Some key) st) j = kof st j).
        { intros j Hj. simpl. destruct (Nat.eqb i j) eqn:E; [|reflexivity]. apply Nat.eqb_eq in E. subst.
          exfalso. apply Hj. simpl. auto. }
        destruct (query S w df) as [d|e] eqn:Hq.
        2: { unfold mbind, mret. exists (setk i (Some key) st), (Err e). split; [reflexivity|].
             rewrite den_unfilter, Hq. split; [reflexivity|]. split; [exact HI|]. split; [exact Hset|]. right. simpl. rewrite Nat.eqb_refl. reflexivity. }
        destruct (new_key_good (Node i k w cs) base w df sb D sb d G Hq (fun x => x)) as (key' & E & Hf & G').
        rewrite Hkey in E. injection E as <-.
        pose proof (body_computes i k w cs key df d sb D (oids (Node i k w cs)) st Cs Kc Ac Fr G' Hq eq_refl) as B.
        cbn zeta in B.
        destruct (B (setk i (Some key) st)) as (st' & E' & HI' & Hk' & Hfr').
        { split; [exact HI|]. split; [simpl; rewrite Nat.eqb_refl; reflexivity|exact Hset]. }
        unfold mbind at 2. unfold mret at 1. unfold mbind at 1. cbn zeta.
        match type of E' with ?X _ = _ => match goal with |- context [?Y (setk i (Some key) st)] => change Y with X end end.
        rewrite E'. rewrite (den_unfilter i k w cs df sb), Hq. cbn [rbind].
        destruct (den S (Node i k [] cs) d sb) as [r|e] eqn:Ed.
        + unfold mbind, mupd, mret. exists (save keq key r st'), (Ok r). split; [reflexivity|]. split; [reflexivity|]. split; [|split; [exact Hfr'|right; exact Hk']].
          apply put_ok; [exact HI'|]. split; [apply (g_ok _ _ _ _ G')|]. simpl. intros m Hm Em.
          rewrite (g_df _ _ _ _ G'), (actual_good _ _ _ _ G' Hfresh).
          rewrite (fp0_sound S L m (Node i k w cs) Hm Kc); [exact Ed|]. rewrite Em. exact Hf.
        + exists st', (Err e). split; [reflexivity|]. split; [reflexivity|]. split; [exact HI'|]. split; [exact Hfr'|right; exact Hk']. }
    destruct Hmain as (st' & r & E & Er & HI' & Hfr' & Hroot).
    exists st'. split; [|split; [exact HI'|split; [exact Hfr'|destruct Hroot; eauto]]]. unfold value. rewrite <- Er. clear Er.
    cbn [run]. unfold finally at 1. unfold mbind at 1. unfold mget at 1.
    unfold mbind at 1. unfold mwrap at 1. rewrite Hwrap, Hkey.
    unfold mbind at 1. unfold mget at 1. unfold mbind at 1.
    match type of E with ?X _ = _ => match goal with |- context [match ?Y st with (_, _) => _ end] => change (Y st) with (X st) end end.
    rewrite E. destruct r as [r|e]; cbn [rbind]; reflexivity.
  Qed.

  Theorem all_correct m : correct m.
  Proof.
    induction m as [z|i k w cs IH] using metric_rect'; intros D df sb rdf ck st Kc Ac Fr G HI.
    - exists st. split; [reflexivity|]. auto.
    - destruct (run_key i k w cs D df sb rdf (Some (KKey ck)) st ck IH Kc Ac Fr G HI eq_refl) as (st' & E & HI' & Hfr & _).
      exists st'. auto.
  Qed.

  Theorem run_top i k w cs df sb rdf ck (st : state) base :
    cacheable (Node i k w cs) -> acyclic (Node i k w cs) -> fresh_splits [] sb (Node i k w cs) ->
    good base df sb [] -> Inv st ->
    wrap (Node i k w cs) (kof st i) (por ck (option_map KKey (kof st i))) sb [] =
      new_key (Node i k w cs) (Some (KKey base)) w sb [] ->
    exists st', run S keq (Node i k w cs) df sb rdf ck st =
                  (value S (Node i k w cs) df sb rdf, finish (Node i k w cs) ck st') /\ Inv st' /\
                (forall j, ~ In j (oids (Node i k w cs)) -> kof st' j = kof st j) /\
                (kof st' i = kof st i \/ exists key, kof st' i = Some key /\
                   new_key (Node i k w cs) (Some (KKey base)) w sb [] = Ok key).
  Proof.
    intros. eapply run_key; eauto. apply Forall_forall. intros c _. apply all_correct.
  Qed.

  Definition base_key (r : option raw) (sb : list string) : ckey := CKey (FNum 0) r [] sb [].
  Lemma base_good r sb df : dfof r = df -> good (base_key r sb) df sb [].
  Proof.
    intros E. constructor; simpl; auto.
    - unfold dfk. simpl. rewrite E. clear. induction df; simpl; congruence.
    - tauto.
    - constructor.
    - intros ->. intros x [].
  Qed.
End Proofs.
