(** Calls by the user: proofs. *)
From Coq Require Import List String ZArith QArith Bool Permutation Lia.
From Coq Require Import Structures.OrderedTypeEx.
From Verif Require Import M_Metric M_Cache S_Cache L_Fp L_Cache.
Import ListNotations.
Open Scope string_scope.
Open Scope list_scope.

(** ** to_set is canonical *)
Lemma str_gtb_lt a b : str_gtb a b = true <-> String_as_OT.lt b a.
Proof.
  unfold str_gtb. rewrite <- String_as_OT.cmp_lt. unfold String_as_OT.cmp.
  rewrite (String.compare_antisym a b). destruct (String.compare b a); simpl; split; congruence.
Qed.
Lemma str_gtb_trans a b c : str_gtb a b = true -> str_gtb b c = true -> str_gtb a c = true.
Proof. rewrite !str_gtb_lt. intros. eapply String_as_OT.lt_trans; eauto. Qed.
Lemma str_gtb_irrefl a : str_gtb a a = false.
Proof. destruct (str_gtb a a) eqn:E; auto. pose proof (str_gtb_asym _ _ E). congruence. Qed.

Inductive ssorted : list string -> Prop :=
| ss_nil : ssorted []
| ss_cons x l : (forall y, In y l -> str_gtb y x = true) -> ssorted l -> ssorted (x :: l).
Lemma set_ins_sorted x l : ssorted l -> ssorted (set_ins x l).
Proof.
  induction 1 as [|y l Hy Hl IH]; simpl; [constructor; [intros y []|constructor]|].
  destruct (String.eqb x y) eqn:E; [constructor; auto|].
  destruct (str_gtb x y) eqn:G.
  - constructor; auto. intros z Hz. apply set_ins_in in Hz. destruct Hz as [->|Hz]; auto.
  - assert (str_gtb y x = true).
    { destruct (str_gtb y x) eqn:G'; auto. pose proof (str_cmp_eq _ _ G G'). subst. rewrite String.eqb_refl in E. discriminate. }
    constructor; [|constructor; auto]. intros z [->|Hz]; auto. eapply str_gtb_trans; eauto.
Qed.
Lemma to_set_sorted l : ssorted (to_set l).
Proof. induction l; simpl; [constructor|apply set_ins_sorted; auto]. Qed.
Lemma ssorted_ext l1 : forall l2, ssorted l1 -> ssorted l2 -> (forall x, In x l1 <-> In x l2) -> l1 = l2.
Proof.
  induction l1 as [|x l1 IH]; intros [|y l2] H1 H2 E.
  - reflexivity.
  - exfalso. apply (E y). simpl; auto.
  - exfalso. apply (E x). simpl; auto.
  - inversion H1 as [|? ? Hx Hl1]; inversion H2 as [|? ? Hy Hl2]; subst.
    assert (x = y).
    { destruct (proj1 (E x) (or_introl eq_refl)) as [<-|I1]; auto.
      destruct (proj2 (E y) (or_introl eq_refl)) as [<-|I2]; auto.
      apply Hy in I1. apply Hx in I2. pose proof (str_gtb_asym _ _ I1). congruence. }
    subst y. f_equal. apply IH; auto. intros z. split; intros Hz.
    + destruct (proj1 (E z) (or_intror Hz)) as [<-|]; auto. apply Hx in Hz. rewrite str_gtb_irrefl in Hz. discriminate.
    + destruct (proj2 (E z) (or_intror Hz)) as [<-|]; auto. apply Hy in Hz. rewrite str_gtb_irrefl in Hz. discriminate.
Qed.
Lemma to_set_ext l1 l2 : (forall x, In x l1 <-> In x l2) -> to_set l1 = to_set l2.
Proof. intros H. apply ssorted_ext; try apply to_set_sorted. intros x. rewrite !to_set_in. apply H. Qed.

Section Top.
  Context {V : Type} (S : sem V).

  (** ** One call without a key *)
  Lemma wrap_fresh m sb w i k cs : m = Node i k w cs ->
    wrap m None (por None (option_map KKey (@None ckey))) sb [] = new_key m (Some (KKey (base_key None sb))) w sb [].
  Proof. intros ->. destruct sb; reflexivity. Qed.

  Lemma transparent (L : laws S) keq : (forall k1 k2, keq k1 k2 = true -> k1 = k2) ->
    forall m df sb rdf keys dict, cacheable m -> acyclic m -> fresh_splits [] sb m ->
    (forall i, root m = Some i -> keys i = None) -> (dict = None \/ dict = Some []) ->
    fst (compute_on S keq m df sb rdf None dict keys) = value S m df sb rdf.
  Proof.
    intros Hh [z|i k w cs] df sb rdf keys dict Kc Ac Fr Hk Hd; [reflexivity|].
    unfold compute_on. simpl option_map.
    set (st := St (match dict with None => [] | Some c => c end) keys).
    assert (HI : Inv S (fun _ => df) st) by (destruct Hd as [->| ->]; constructor).
    destruct (run_top S L keq Hh (fun _ => df) i k w cs df sb rdf None st (base_key None sb) Kc Ac Fr) as (st' & E & _).
    - apply base_good. reflexivity.
    - exact HI.
    - simpl. rewrite (Hk i eq_refl). eapply wrap_fresh. reflexivity.
    - rewrite E. reflexivity.
  Qed.

  (** ** The end of a call without a key *)
  Lemma finally_cleanup {A} (x : @M V A) m st0 :
    let st := snd (finally x (cleanup m) st0) in cache st = [] /\ forall j, In j (oids m) -> kof st j = None.
  Proof.
    unfold finally. destruct (x st0) as [r st']. cbn [snd cleanup cache kof]. split; [reflexivity|]. intros j Hj.
    assert (E : existsb (Nat.eqb j) (oids m) = true).
    { apply existsb_exists. exists j. split; auto. apply Nat.eqb_refl. }
    rewrite E. reflexivity.
  Qed.
  Lemma cleaned keq i k w cs df sb rdf dict keys :
    let st := snd (compute_on S keq (Node i k w cs) df sb rdf None dict keys) in
    cache st = [] /\ forall j, In j (oids (Node i k w cs)) -> kof st j = None.
  Proof.
    exact (finally_cleanup _ (Node i k w cs) _).
  Qed.

  (** ** Only objects of the tree are touched *)
  Definition keeps {A} (O : list nat) (x : @M V A) : Prop :=
    forall st, forall j, ~ In j O -> kof (snd (x st)) j = kof st j.
  Lemma k_ret {A} O (r : res A) : keeps O (mret r).
  Proof. intros st j _. reflexivity. Qed.
  Lemma k_get O : keeps O (@mget V).
  Proof. intros st j _. reflexivity. Qed.
  Lemma k_bind {A B} O (x : @M V A) (f : A -> @M V B) : keeps O x -> (forall a, keeps O (f a)) -> keeps O (mbind x f).
  Proof.
    intros Hx Hf st j Hj. unfold mbind. specialize (Hx st j Hj). destruct (x st) as [[a|e] st']; simpl in *; [|exact Hx].
    rewrite Hf by exact Hj. exact Hx.
  Qed.
  Lemma k_mapM {A B} O (f : A -> @M V B) l : (forall x, In x l -> keeps O (f x)) -> keeps O (mmapM f l).
  Proof.
    induction l as [|x l IH]; intros H; [apply k_ret|]. simpl. apply k_bind; [apply H; simpl; auto|].
    intros. apply k_bind; [apply IH; intros; apply H; simpl; auto|intros; apply k_ret].
  Qed.
  Lemma k_collect {A B} O (f : A -> @M V B) l : (forall x, In x l -> keeps O (f x)) -> keeps O (mcollect f l).
  Proof.
    induction l as [|x l IH]; intros H; [apply k_ret|]. intros st j Hj. simpl.
    pose proof (H x (or_introl eq_refl) st j Hj) as H1.
    assert (IH' := IH (fun y Hy => H y (or_intror Hy))).
    destruct (f x st) as [[a|e] st']; simpl in *.
    - rewrite (k_bind O (mcollect f l) (fun ys => mret (Ok (a :: ys))) IH' (fun _ => k_ret _ _) st' j Hj). exact H1.
    - rewrite IH' by exact Hj. exact H1.
  Qed.
  Lemma k_set (O : list nat) i k : In i O -> keeps O (@mupd V (setk i k)).
  Proof.
    intros Hi st j Hj. simpl. destruct (Nat.eqb i j) eqn:E; auto. apply Nat.eqb_eq in E. subst. contradiction.
  Qed.
  Lemma k_finally {A} O (x : @M V A) f : keeps O x -> (forall st j, ~ In j O -> kof (f st) j = kof st j) -> keeps O (finally x f).
  Proof. intros Hx Hf st j Hj. unfold finally. specialize (Hx st j Hj). destruct (x st). simpl in *. rewrite Hf by exact Hj. exact Hx. Qed.
  Lemma k_incl {A} O O' (x : @M V A) : incl O O' -> keeps O x -> keeps O' x.
  Proof. intros Hi Hx st j Hj. apply Hx. intros X. apply Hj, Hi, X. Qed.
  Lemma k_wrap O m i k sp sl : keeps O (@mwrap V m i k sp sl).
  Proof. intros st j _. reflexivity. Qed.

  Lemma run_keeps keq m : forall df sb rdf ck, keeps (oids m) (run S keq m df sb rdf ck).
  Proof.
    induction m as [z|i k w cs IH] using metric_rect'; intros df sb rdf ck; [apply k_ret|].
    rewrite Forall_forall in IH.
    assert (U : forall c d sb' rdf' key, In c cs -> keeps (oids (Node i k w cs)) (run S keq c d sb' rdf' key)).
    { intros c d sb' rdf' key Hc. eapply k_incl; [|apply IH, Hc]. intros j Hj. simpl. right. apply in_flat_map. eauto. }
    assert (Hi : In i (oids (Node i k w cs))) by (simpl; auto).
    set (O := oids (Node i k w cs)) in *.
    cbn [run]. apply k_finally.
    2: { intros st j Hj. destruct ck; [reflexivity|]. unfold cleanup. cbn [kof].
         destruct (existsb (Nat.eqb j) (oids (Node i k w cs))) eqn:E; auto.
         apply existsb_exists in E. destruct E as (j' & H1 & H2). apply Nat.eqb_eq in H2. subst. contradiction. }
    apply k_bind; [apply k_get|intros st0]. apply k_bind; [apply k_wrap|intros key].
    apply k_bind; [apply k_get|intros st1]. apply k_bind; [|intros; apply k_ret].
    destruct (lookup keq key st1); [apply k_ret|].
    apply k_bind; [apply k_set; exact Hi|intros _]. apply k_bind.
    2: { intros r. apply k_bind; [|intros; apply k_ret]. intros st j _. reflexivity. }
    apply k_bind; [apply k_ret|intros d].
    destruct k as [l|b|crd|o ex exi|u].
    - apply k_ret.
    - apply k_bind.
      + apply k_mapM. intros [z|i' k' w' cs'] Hc; [apply k_ret|]. apply k_bind; [|intros; apply k_ret].
        apply k_bind; [apply k_wrap|intros; apply U; exact Hc].
      + intros [|a [|b' [|]]]; apply k_ret.
    - apply k_bind; [|intros; apply k_ret]. apply k_collect. intros c Hc. apply k_bind; [apply k_wrap|intros; apply U; exact Hc].
    - destruct cs as [|c [|]]; try apply k_ret. apply k_bind; [|intros; apply k_ret].
      apply k_bind; [apply k_wrap|intros; apply U; simpl; auto].
    - destruct cs as [|c [|]]; try apply k_ret. destruct sb as [|s sb].
      + apply k_bind; [|intros; apply k_ret]. apply k_bind; [apply k_wrap|intros; apply U; simpl; auto].
      + apply k_bind; [|intros; apply k_ret]. apply k_mapM. intros vals _.
        apply k_bind; [apply k_get|intros st2]. apply k_bind; [apply k_wrap|intros key2].
        apply k_bind; [apply k_set; exact Hi|intros _]. apply k_finally.
        * apply k_bind; [|intros; apply k_ret]. apply k_bind; [|intros; apply k_ret].
          apply k_bind; [apply k_wrap|intros; apply U; simpl; auto].
        * intros st3 j Hj. apply (k_set O i (kof st2 i) Hi st3 j Hj).
  Qed.

  (** ** Histories *)
  Definition Kinv (past : list call) (keys : nat -> option ckey) (c : call) : Prop :=
    forall i k, root (c_metric c) = Some i -> keys i = Some k ->
      k_slice k = [] /\ incl (k_where k) (where_of (c_metric c)) /\ (c_split c = [] -> k_split k = []).

  Lemma good_replace k r sb w m : k_slice k = [] -> incl (k_where k) w -> (sb = [] -> k_split k = []) ->
    new_key m (Some (KKey (replace_key k r))) w sb [] = new_key m (Some (KKey (base_key (Some r) sb))) w sb [].
  Proof.
    intros Hs Hw Hsb. unfold new_key, replace_key, base_key. simpl. rewrite Hs. simpl.
    rewrite (to_set_ext (k_where k ++ w) w).
    - destruct sb; [rewrite Hsb by reflexivity|]; reflexivity.
    - intros x. rewrite in_app_iff. split; auto. intros [H|H]; auto.
  Qed.
  Lemma good_keep k sb w m : k_slice k = [] -> incl (k_where k) w -> (sb = [] -> k_split k = []) ->
    new_key m (Some (KKey k)) w sb [] = new_key m (Some (KKey (base_key (k_raw k) sb))) w sb [].
  Proof.
    intros Hs Hw Hsb. unfold new_key, base_key. simpl. rewrite Hs. simpl.
    rewrite (to_set_ext (k_where k ++ w) w).
    - destruct sb; [rewrite Hsb by reflexivity|]; reflexivity.
    - intros x. rewrite in_app_iff. split; auto. intros [H|H]; auto.
  Qed.

  (** What is kept about the keys of the metrics still to be computed: *)
  Definition key_ok (c : call) (keys : nat -> option ckey) : Prop :=
    forall i k, root (c_metric c) = Some i -> keys i = Some k ->
      k_slice k = [] /\ incl (k_where k) (where_of (c_metric c)) /\ (c_split c = [] -> k_split k = []).

  Lemma new_base_fields m r sb w k : new_key m (Some (KKey (base_key r sb))) w sb [] = Ok k ->
    k_slice k = [] /\ incl (k_where k) w /\ k_split k = sb.
  Proof.
    unfold new_key. simpl. intros H. injection H as <-. simpl. split; [reflexivity|]. split.
    - intros x. apply to_set_in.
    - destruct sb; reflexivity.
  Qed.

  Lemma step_ok (L : laws S) keq (Hh : forall k1 k2, keq k1 k2 = true -> k1 = k2) (dfof : raw -> frame) c dict keys :
    well_formed c -> honest_keys dfof c -> key_ok c keys ->
    Inv S (fun o => match o with Some r => dfof r | None => [] end) (St dict keys) ->
    let p := compute_on S keq (c_metric c) (c_df c) (c_split c) (c_rdf c) (c_key c)
               (match c_key c with None => None | Some _ => Some dict end) keys in
    fst p = expected S c /\
    (c_key c <> None -> Inv S (fun o => match o with Some r => dfof r | None => [] end) (snd p)) /\
    (forall c', may_follow c c' -> key_ok c' keys -> key_ok c' (kof (snd p))).
  Proof.
    intros (Kc & Ac & Fr) Hon Hkey HI p.
    destruct c as [m df sb rdf key]. simpl in *. destruct m as [z|i k w cs].
    { subst p. simpl. split; [reflexivity|]. split; [|auto]. destruct key; [auto|intros X; congruence]. }
    unfold key_ok in Hkey. simpl in Hkey.
    destruct key as [r|].
    - (* with a key *)
      destruct (Hon r eq_refl) as [Hr Hdf].
      set (D := fun o => match o with Some r => dfof r | None => [] end) in *.
      destruct (run_top S L keq Hh D i k w cs df sb rdf (Some (KRaw r)) (St dict keys) (base_key (Some r) sb) Kc Ac Fr)
        as (st' & E & HI' & Hfr & Hroot).
      + apply base_good. unfold D. symmetry. exact Hdf.
      + exact HI.
      + cbn [kof]. assert (Er : String.eqb r "" = false) by (apply String.eqb_neq; exact Hr).
        unfold por at 1. simpl truthy. rewrite Er. simpl negb. cbv iota. unfold wrap.
        destruct (keys i) as [k0|] eqn:Ek.
        * rewrite Er. destruct (Hkey i k0 eq_refl Ek) as (H1 & H2 & H3). cbn [option_map]. unfold por. simpl truthy. cbv iota.
          apply good_replace; auto.
        * unfold por. simpl. rewrite Er. simpl. destruct sb; reflexivity.
      + subst p. unfold compute_on. cbn [option_map]. rewrite E. cbn [fst snd finish].
        split; [reflexivity|]. split; [intros _; exact HI'|].
        intros [m' df' sb' rdf' key'] [Hpart Hsame] Hk' j k1 Hj Hk1. simpl in *.
        destruct (in_dec Nat.eq_dec j (oids (Node i k w cs))) as [Hin|Hin].
        * destruct Hin as [<-|Hin]; [|exfalso; apply (Hpart j Hj Hin)].
          destruct Hroot as [Hroot|(key & Hroot & Hnew)]; simpl in Hroot.
          -- rewrite Hroot in Hk1. apply (Hk' i k1 Hj Hk1).
          -- rewrite Hroot in Hk1. injection Hk1 as <-. destruct (new_base_fields _ _ _ _ _ Hnew) as (F1 & F2 & F3).
             destruct (Hsame (eq_sym Hj)) as [Hw Hs]. split; [exact F1|]. split; [rewrite <- Hw; exact F2|].
             intros Hsb. rewrite F3. auto.
        * rewrite Hfr in Hk1 by exact Hin. apply (Hk' j k1 Hj Hk1).
    - (* without *)
      subst p.
      assert (Ex : exists base, good S (fun _ => df) base df sb [] /\
         wrap (Node i k w cs) (keys i) (por None (option_map KKey (keys i))) sb [] =
         new_key (Node i k w cs) (Some (KKey base)) w sb []).
      { destruct (keys i) as [k0|] eqn:Ek.
        - exists (base_key (k_raw k0) sb). split; [apply base_good; reflexivity|].
          destruct (Hkey i k0 eq_refl Ek) as (H1 & H2 & H3). unfold wrap. cbn [option_map]. unfold por at 2. simpl truthy. cbv iota.
          unfold por. simpl truthy. cbv iota. apply good_keep; auto.
        - exists (base_key None sb). split; [apply base_good; reflexivity|]. eapply wrap_fresh. reflexivity. }
      destruct Ex as (base & G & Hw).
      destruct (run_top S L keq Hh (fun _ => df) i k w cs df sb rdf None (St [] keys) base Kc Ac Fr G) as (st' & E & HI' & Hfr & Hroot).
      + constructor.
      + exact Hw.
      + split; [unfold compute_on; cbn [option_map]; rewrite E; reflexivity|]. split; [congruence|].
        intros c' Hm Hk' j k1 Hj Hk1.
        destruct (in_dec Nat.eq_dec j (oids (Node i k w cs))) as [Hin|Hin].
        * destruct (cleaned keq i k w cs df sb rdf None keys) as [_ Hc]. rewrite Hc in Hk1 by exact Hin. discriminate.
        * unfold compute_on in Hk1. cbn [option_map] in Hk1. rewrite run_keeps in Hk1 by exact Hin. apply (Hk' j k1 Hj Hk1).
  Qed.

  Lemma history_ok (L : laws S) keq (Hh : forall k1 k2, keq k1 k2 = true -> k1 = k2) (dfof : raw -> frame) l : forall dict keys,
    Forall well_formed l -> Forall (honest_keys dfof) l -> ForallOrdPairs may_follow l ->
    Forall (fun c => key_ok c keys) l ->
    Inv S (fun o => match o with Some r => dfof r | None => [] end) (St dict keys) ->
    history S keq l dict keys = map (expected S) l.
  Proof.
    induction l as [|c l IH]; intros dict keys Hw Hh' Hf Hk HI; [reflexivity|].
    inversion Hw; inversion Hh'; inversion Hf; inversion Hk; subst.
    destruct (step_ok L keq Hh dfof c dict keys) as (E & HI' & Hk'); auto.
    assert (Hnext : forall keys', (forall c', may_follow c c' -> key_ok c' keys -> key_ok c' keys') -> Forall (fun c' => key_ok c' keys') l).
    { intros keys' X. rewrite Forall_forall in *. intros c' Hc'. apply X; auto. }
    cbn [history map]. destruct (c_key c) as [r|] eqn:Ek.
    - destruct (compute_on _ _ _ _ _ _ (Some r) _ _) as [x st'] eqn:Ec. simpl in *. f_equal; [exact E|].
      apply IH; auto. destruct st'. apply HI'. discriminate.
    - destruct (compute_on _ _ _ _ _ _ None _ _) as [x st'] eqn:Ec. simpl in *. f_equal; [exact E|].
      apply IH; auto. 
  Qed.

  Lemma history_fresh (L : laws S) keq (Hh : forall k1 k2, keq k1 k2 = true -> k1 = k2) (dfof : raw -> frame) l :
    Forall well_formed l -> Forall (honest_keys dfof) l -> ForallOrdPairs may_follow l ->
    history S keq l [] no_keys = map (expected S) l.
  Proof.
    intros. apply history_ok with dfof; auto.
    - apply Forall_forall. intros c _ i k _ X. discriminate.
    - constructor.
  Qed.

  (** Without keys anything may follow anything. *)
  Lemma history_no_key (L : laws S) keq (Hh : forall k1 k2, keq k1 k2 = true -> k1 = k2) l : forall keys dict, (forall i, keys i = None) ->
    Forall (fun c => c_key c = None) l -> Forall well_formed l ->
    history S keq l dict keys = map (expected S) l.
  Proof.
    induction l as [|c l IH]; intros keys dict Hk Hn Hw; [reflexivity|]. inversion Hn; inversion Hw; subst.
    cbn [history map]. rewrite H1. destruct H5 as (Kc & Ac & Fr).
    pose proof (transparent L keq Hh (c_metric c) (c_df c) (c_split c) (c_rdf c) keys None Kc Ac Fr (fun i _ => Hk i) (or_introl eq_refl)) as E.
    destruct (compute_on S keq (c_metric c) (c_df c) (c_split c) (c_rdf c) None None keys) as [x st] eqn:Ec.
    f_equal; [exact E|]. apply IH; auto. intros j.
    replace st with (snd (compute_on S keq (c_metric c) (c_df c) (c_split c) (c_rdf c) None None keys)) by (rewrite Ec; reflexivity).
    destruct (in_dec Nat.eq_dec j (oids (c_metric c))) as [Hin|Hin].
    - destruct (c_metric c) as [z|i k w cs]; [destruct Hin|]. apply cleaned. exact Hin.
    - unfold compute_on. simpl option_map. rewrite run_keeps by exact Hin. apply Hk.
  Qed.

  (** ** Filters *)
  Lemma value_where i k w cs df sb rdf :
    value S (Node i k w cs) df sb rdf = rbind (query S w df) (fun d => value S (Node i k [] cs) d sb rdf).
  Proof. unfold value. rewrite den_unfilter. apply rbind_assoc. Qed.

  Lemma query_app w1 w2 df : query S (w1 ++ w2) df = rbind (query S w1 df) (query S w2) \/
    (exists e, query S (w1 ++ w2) df = Err e /\ rbind (query S w1 df) (query S w2) = Err e).
  Proof.
    unfold query. rewrite existsb_app. destruct (existsb (qbad S) w1) eqn:E1; simpl; [right; eauto|].
    destruct (existsb (qbad S) w2) eqn:E2; simpl; [left; reflexivity|]. left. f_equal. rewrite filter_filter.
    apply filter_ext. intros r. apply forallb_app'.
  Qed.
  Lemma query_add w1 w2 df : query S (w1 ++ w2) df = rbind (query S w1 df) (query S w2).
  Proof. destruct (query_app w1 w2 df) as [E|(e & E1 & E2)]; congruence. Qed.
  Lemma query_same w1 w2 df : (forall x, In x w1 <-> In x w2) -> query S w1 df = query S w2 df.
  Proof.
    intros H. unfold query. rewrite (existsb_same _ _ _ H). destruct existsb; auto. f_equal. apply filter_ext.
    intros r. apply forallb_same, H.
  Qed.

  Definition joined (w0 w : list string) : list string :=
    match w with [] => w0 | _ => match w0 with [] => w | _ => to_set (w0 ++ w) end end.
  Lemma joined_in w0 w x : In x (joined w0 w) <-> In x w0 \/ In x w.
  Proof.
    unfold joined. destruct w as [|a w]; [simpl; tauto|]. destruct w0 as [|b w0]; [simpl; tauto|].
    rewrite to_set_in, in_app_iff. tauto.
  Qed.
  Lemma query_joined w0 w df d : query S w df = Ok d -> query S (joined w0 w) df = query S w0 d.
  Proof.
    intros H. rewrite (query_same _ (w ++ w0)); [rewrite query_add, H; reflexivity|].
    intros x. rewrite joined_in, in_app_iff. tauto.
  Qed.

  Lemma push_down_node i k w0 cs w : push_down w (Node i k w0 cs) =
    match cs with [] => Node i k (joined w0 w) [] | _ => Node i k [] (map (push_down (joined w0 w)) cs) end.
  Proof. reflexivity. Qed.
  Lemma push_down_den m : forall w df d sb, every built m -> no_custom m -> valid_filters S m -> query S w df = Ok d ->
    den S (push_down w m) df sb = den S m d sb.
  Proof.
    induction m as [z|i k w0 cs IH] using metric_rect'; intros w df d sb Hb Hn Hv Hq; [reflexivity|].
    apply every_node in Hb, Hn, Hv. destruct Hb as [Hb1 Hb], Hn as [Hk Hn], Hv as [Hw Hv].
    rewrite push_down_node.
    assert (Hj : query S (joined w0 w) df = query S w0 d) by (apply query_joined; exact Hq).
    destruct cs as [|c0 cs0] eqn:Ecs.
    { rewrite (den_unfilter S i k (joined w0 w) [] df), (den_unfilter S i k w0 [] d). rewrite Hj. reflexivity. }
    assert (Hne : cs <> []) by congruence. rewrite <- Ecs in *. clear Ecs c0 cs0.
    assert (Hd : exists d', query S w0 d = Ok d') by (unfold query; rewrite Hw; eauto).
    destruct Hd as [d' Hd]. rewrite den_unfilter, query_nil. cbn [rbind].
    rewrite (den_unfilter S i k w0), Hd. cbn [rbind].
    rewrite Forall_forall in IH, Hn, Hv, Hb.
    assert (C : forall c, In c cs -> forall sb, den S (push_down (joined w0 w) c) df sb = den S c d' sb).
    { intros c Hc sb'. apply IH; [exact Hc|exact (Hb c Hc)|exact (Hn c Hc)|exact (Hv c Hc)|]. rewrite Hj. exact Hd. }
    cbn [den]. rewrite !query_nil. cbn [rbind].
    assert (PL : forall c, is_list (push_down (joined w0 w) c) = is_list c).
    { intros [z|i' k' w' cs']; [reflexivity|]. simpl. destruct cs'; reflexivity. }
    destruct k as [l|b|crd|o ex exi|u]; [| | | |contradiction].
    - destruct Hb1 as [-> _]. congruence.
    - f_equal. apply rmapM_ext2. clear -C PL. revert C. induction cs as [|c cs IHc]; intros C; [constructor|].
      constructor; [|apply IHc; intros; apply C; simpl; auto].
      rewrite (C c (or_introl eq_refl)), PL. destruct c as [|? ? ? [|]]; reflexivity.
    - f_equal. f_equal. clear -C. induction cs as [|c cs IHc]; [reflexivity|]. simpl.
      rewrite (C c (or_introl eq_refl)), IHc; [reflexivity|]. intros; apply C; simpl; auto.
    - destruct cs as [|c [|]]; try reflexivity. simpl. rewrite (C c (or_introl eq_refl)). reflexivity.
  Qed.
  Lemma push_value m df sb rdf : every built m -> no_custom m -> valid_filters S m ->
    value S (push_filters m) df sb rdf = value S m df sb rdf.
  Proof.
    intros. unfold value, push_filters. rewrite push_down_den with (d := df); auto. apply query_nil.
  Qed.
  (** All filters end up in the leaves. *)
  Lemma push_down_leaves m : forall w,
    every (fun _ _ w cs => cs <> [] -> w = []) (push_down w m).
  Proof.
    induction m as [z|i k w0 cs IH] using metric_rect'; intros w; [exact I|].
    cbn [push_down]. destruct cs as [|c cs]; apply every_node.
    - split; [congruence|constructor].
    - split; [reflexivity|]. apply Forall_forall. intros m' Hm. apply in_map_iff in Hm.
      destruct Hm as (m0 & <- & Hm). rewrite Forall_forall in IH. apply IH, Hm.
  Qed.

  (** ** MetricList *)
  Lemma list_value (L : laws S) keq (Hh : forall k1 k2, keq k1 k2 = true -> k1 = k2) i w cs df d sb :
    cacheable (Node i (KList true) w cs) -> acyclic (Node i (KList true) w cs) ->
    fresh_splits [] sb (Node i (KList true) w cs) -> query S w df = Ok d ->
    fst (compute_on S keq (Node i (KList true) w cs) df sb false None None no_keys) =
    Ok (RL (flat_map (fun c => match fst (compute_on S keq c d sb true None None no_keys) with
                               | Ok r => [r] | Err _ => [] end) cs)).
  Proof.
    intros Kc Ac Fr Hq. rewrite (transparent L keq Hh) by (simpl; auto).
    rewrite value_where, Hq. cbn [rbind]. unfold value. cbn [den]. rewrite query_nil. cbn [rbind manip]. f_equal. f_equal.
    pose proof (cacheable_children _ _ _ _ Kc) as Kcs. destruct (acyclic_children _ _ _ _ Ac) as [Acs _].
    destruct Fr as (_ & _ & Fr). apply fold_and in Fr. clear - Kcs Acs Fr L Hh.
    induction cs as [|c cs IH]; [reflexivity|]. inversion Kcs; inversion Acs; inversion Fr; subst. simpl.
    rewrite (transparent L keq Hh c d sb true no_keys None) by (simpl; auto). unfold value. f_equal. apply IH; auto.
  Qed.

  Lemma collect_ok {A B} (f : A -> @M V B) l : forall st, exists r st', mcollect f l st = (Ok r, st').
  Proof.
    induction l as [|x l IH]; intros st; [exists [], st; reflexivity|]. simpl.
    destruct (f x st) as [[y|e] st1]; [|apply IH]. destruct (IH st1) as (r & st2 & E). unfold mbind. rewrite E.
    exists (y :: r), st2. reflexivity.
  Qed.
  Lemma list_never_raises keq i crd w cs df df' sb : query S w df = Ok df' ->
    exists l, fst (compute_on S keq (Node i (KList crd) w cs) df sb false None None no_keys) = Ok (RL l).
  Proof.
    intros Hq. unfold compute_on. cbn [option_map run]. rewrite Hq. unfold finally, mbind, mwrap, mget, mret, mupd.
    cbn [kof no_keys option_map cache lookup find]. unfold lookup. cbn [cache find option_map]. unfold wrap.
    cbn [option_map por truthy new_key].
    change (no_keys i) with (@None ckey). cbn [option_map]. unfold new_key at 1. cbv iota beta.
    match goal with |- context [mcollect ?f cs ?s] => destruct (collect_ok f cs s) as (r & st' & E) end.
    rewrite E. cbn. eexists. reflexivity.
  Qed.

  (** ** A filter on the root *)
  Lemma unfiltered_ok i k w cs sb : cacheable (Node i k w cs) -> acyclic (Node i k w cs) -> fresh_splits [] sb (Node i k w cs) ->
    cacheable (Node i k [] cs) /\ acyclic (Node i k [] cs) /\ fresh_splits [] sb (Node i k [] cs).
  Proof.
    intros (B & M & U) A F. split; [|split; [exact A|exact F]].
    apply every_node in B, M, U. destruct B as [B B'], M as [M M'], U as [U U'].
    split; [apply every_node; split; auto|]. split; [apply every_node; split; auto|apply every_node; split; auto].
    destruct k; simpl in *; auto. intros v w' H. split; auto. apply (M v w' H).
  Qed.
  Lemma where_prefilter (L : laws S) keq (Hh : forall k1 k2, keq k1 k2 = true -> k1 = k2) i k w cs df sb rdf :
    cacheable (Node i k w cs) -> acyclic (Node i k w cs) -> fresh_splits [] sb (Node i k w cs) ->
    fst (compute_on S keq (Node i k w cs) df sb rdf None None no_keys) =
    rbind (query S w df) (fun d => fst (compute_on S keq (Node i k [] cs) d sb rdf None None no_keys)).
  Proof.
    intros Kc Ac Fr. destruct (unfiltered_ok _ _ _ _ _ Kc Ac Fr) as (Kc' & Ac' & Fr').
    rewrite (transparent L keq Hh) by (simpl; auto). rewrite value_where. apply rbind_ext. intros d.
    rewrite (transparent L keq Hh) by (simpl; auto). reflexivity.
  Qed.
End Top.
