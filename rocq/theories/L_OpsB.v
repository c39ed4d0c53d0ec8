(** PercentChange, AbsoluteChange, MH. *)
From Coq Require Import Reals List Bool String Arith Lia Lra Permutation.
From Verif Require Import M_Num M_Frame M_Ops S_Ops L_Frame L_OpsA.
Import ListNotations.
Open Scope list_scope.
Open Scope R_scope.

Lemma firstn_app_len {A} (a b : list A) n : List.length a = n -> firstn n (a ++ b) = a.
Proof. intros <-. rewrite firstn_app, Nat.sub_diag, firstn_all, app_nil_r. reflexivity. Qed.
Lemma skipn_app_len {A} (a b : list A) n : List.length a = n -> skipn n (a ++ b) = b.
Proof. intros <-. rewrite skipn_app, Nat.sub_diag, skipn_all. reflexivity. Qed.
Lemma skipn_skipn {A} a b (l : list A) : skipn a (skipn b l) = skipn (b + a) l.
Proof. revert l; induction b; intros l; simpl; auto. destruct l; auto. now destruct a. Qed.
Lemma cond_of_app n nc (s c r : key) : List.length s = n -> List.length c = nc -> cond_of n nc (s ++ c ++ r) = c.
Proof. intros Hs Hc. unfold cond_of. rewrite skipn_app_len by assumption. now apply firstn_app_len. Qed.
Lemma drop_cond_app n nc (s c r : key) : List.length s = n -> List.length c = nc -> drop_cond n nc (s ++ c ++ r) = s ++ r.
Proof.
  intros Hs Hc. unfold drop_cond. rewrite firstn_app_len by assumption. f_equal.
  rewrite app_assoc. apply skipn_app_len. rewrite app_length. lia.
Qed.
Lemma key_split n nc (k : key) : (n + nc <= List.length k)%nat ->
  k = firstn n k ++ cond_of n nc k ++ skipn (n + nc) k.
Proof.
  intros H. unfold cond_of. rewrite <- (firstn_skipn n k) at 1. f_equal.
  rewrite <- (firstn_skipn nc (skipn n k)) at 1. f_equal. now rewrite skipn_skipn.
Qed.
(** the key parts determine the key *)
Lemma key_parts_inj n nc (k k' : key) :
  (n + nc <= List.length k)%nat -> (n + nc <= List.length k')%nat ->
  cond_of n nc k = cond_of n nc k' -> drop_cond n nc k = drop_cond n nc k' -> k = k'.
Proof.
  intros H H' Hc Hd. rewrite (key_split n nc k H), (key_split n nc k' H'). unfold drop_cond in Hd.
  assert (firstn n k = firstn n k' /\ skipn (n + nc) k = skipn (n + nc) k') as [-> ->].
  { assert (List.length (firstn n k) = List.length (firstn n k')) as L by (rewrite !firstn_length; lia).
    revert L Hd. generalize (firstn n k) (firstn n k'). intros a b. revert b.
    induction a; destruct b; simpl; intros L E; try discriminate; auto.
    injection E as -> E. destruct (IHa b) as [-> ->]; auto. }
  now rewrite Hc.
Qed.

(** the index of the child is unique and long enough *)
Definition good_index {A} (n : nat) (fr : list (key * A)) : Prop :=
  NoDup (List.map fst fr) /\ (forall k v, In (k, v) fr -> (n <= List.length k)%nat).

Lemma xs_None {A} n nc base (fr : list (key * A)) :
  xs n nc base fr = None <-> (forall k v, In (k, v) fr -> cond_of n nc k <> base).
Proof.
  unfold xs. destruct (filter (fun r => key_eqb (cond_of n nc (fst r)) base) fr) as [|r l] eqn:E.
  - split; auto. intros _ k v H Hc. assert (In (k, v) (filter (fun r => key_eqb (cond_of n nc (fst r)) base) fr)) as H'.
    { apply filter_In. split; auto. now apply key_eqb_eq. }
    rewrite E in H'. destruct H'.
  - split; [discriminate|]. intros H. assert (In r (filter (fun r => key_eqb (cond_of n nc (fst r)) base) fr)) as H' by (rewrite E; now left).
    apply filter_In in H' as [H1 H2]. apply key_eqb_eq in H2. destruct r as [k v]. destruct (H k v H1 H2).
Qed.
Lemma xs_Some {A} n nc base (fr b : list (key * A)) : xs n nc base fr = Some b ->
  b = List.map (fun r => (drop_cond n nc (fst r), snd r)) (filter (fun r => key_eqb (cond_of n nc (fst r)) base) fr).
Proof. unfold xs. destruct (filter _ fr); [discriminate|]. now injection 1 as <-. Qed.
Lemma NoDup_map_inj_in {A B C} (f : A -> B) (h : A -> C) (l : list A) :
  NoDup (List.map f l) -> (forall x y, In x l -> In y l -> h x = h y -> f x = f y) -> NoDup (List.map h l).
Proof.
  induction l as [|x l IH]; simpl; intros Hd Hi; constructor.
  - inversion Hd; subst. rewrite in_map_iff. intros [y [E Hy]]. apply H1. rewrite in_map_iff. exists y. auto.
  - inversion Hd; subst. auto.
Qed.
Lemma NoDup_map_filter {A B} (f : A -> B) p (l : list A) : NoDup (List.map f l) -> NoDup (List.map f (filter p l)).
Proof.
  induction l as [|x l IH]; simpl; intros Hd; [constructor|]. inversion Hd; subst. destruct (p x); auto.
  simpl. constructor; auto. rewrite in_map_iff. intros [y [E Hy]]. apply H1. rewrite in_map_iff. exists y.
  apply filter_In in Hy as [Hy _]. auto.
Qed.
Lemma xs_unique {A} n nc base (fr b : list (key * A)) :
  good_index (n + nc) fr -> xs n nc base fr = Some b -> NoDup (List.map fst b).
Proof.
  intros [Hd Hl] H. apply xs_Some in H as ->. rewrite map_map. simpl.
  apply (NoDup_map_inj_in fst); [now apply NoDup_map_filter|].
  intros [k v] [k' v'] Hx Hy E. apply filter_In in Hx as [Hx Hcx]. apply filter_In in Hy as [Hy Hcy].
  apply key_eqb_eq in Hcx, Hcy. simpl in *. apply (key_parts_inj n nc); eauto; congruence.
Qed.
Lemma xs_In {A} n nc base (fr b : list (key * A)) (s r : key) v :
  xs n nc base fr = Some b -> List.length s = n -> List.length base = nc ->
  In (s ++ base ++ r, v) fr -> In (s ++ r, v) b.
Proof.
  intros H Hs Hb Hi. apply xs_Some in H as ->. apply in_map_iff. exists (s ++ base ++ r, v). simpl.
  split; [now rewrite drop_cond_app|]. apply filter_In. split; auto. simpl. apply key_eqb_eq. now apply cond_of_app.
Qed.
Lemma app_len_inj {A} (a a' b b' : list A) : List.length a = List.length a' -> a ++ b = a' ++ b' -> a = a' /\ b = b'.
Proof.
  revert a'; induction a; destruct a'; simpl; try discriminate; auto.
  intros L E. injection E as -> E. destruct (IHa a') as [-> ->]; auto.
Qed.
Lemma xs_not_In {A} n nc base (fr b : list (key * A)) (s r : key) :
  good_index (n + nc) fr ->
  xs n nc base fr = Some b -> List.length s = n -> List.length base = nc ->
  (forall v, ~ In (s ++ base ++ r, v) fr) -> ~ In (s ++ r) (List.map fst b).
Proof.
  intros [_ Hl] H Hs Hb Hi Hin. apply xs_Some in H as ->. rewrite map_map in Hin. apply in_map_iff in Hin as [[k v] [E Hk]].
  simpl in E. apply filter_In in Hk as [Hk Hc]. simpl in Hc. apply key_eqb_eq in Hc. apply (Hi v).
  pose proof (key_split n nc k (Hl _ _ Hk)) as Ek. rewrite Hc in Ek. rewrite Ek in Hk. unfold drop_cond in E.
  apply app_len_inj in E as [E1 E2].
  - rewrite E1, E2 in Hk. exact Hk.
  - rewrite firstn_length. specialize (Hl _ _ Hk). rewrite <- Ek in Hl. lia.
Qed.

Section Compare.
  Variable f : num -> num -> num.
  Variables (n nc : nat) (base : key) (incl : bool) (children res : rframe).
  Hypothesis Hb : List.length base = nc.

  Lemma compare_raises :
    compare_with_base f n nc base incl children = None <-> (forall k v, In (k, v) children -> cond_of n nc k <> base).
  Proof.
    rewrite <- (xs_None n nc base children). unfold compare_with_base. destruct (xs n nc base children); split; congruence.
  Qed.
  Hypothesis Hi : good_index (n + nc) children.
  Hypothesis Hr : compare_with_base f n nc base incl children = Some res.

  Lemma compare_index :
    List.map fst res = filter (fun k => incl || negb (key_eqb (cond_of n nc k) base)) (List.map fst children).
  Proof.
    unfold compare_with_base in Hr. destruct (xs n nc base children) as [b|]; [|discriminate]. injection Hr as <-.
    destruct incl; simpl orb.
    - rewrite filter_all by auto. rewrite map_map. now apply map_ext.
    - clear. induction children as [|[k v] l IH]; simpl; auto. destruct (negb (key_eqb (cond_of n nc k) base)); simpl; now rewrite IH.
  Qed.
  Lemma compare_row s c r v w :
    List.length s = n -> List.length c = nc -> In (s ++ c ++ r, v) children ->
    In (s ++ base ++ r, w) children -> incl = true \/ c <> base -> In (s ++ c ++ r, f v w) res.
  Proof.
    intros Hs Hc H1 H2 Hkeep. unfold compare_with_base in Hr.
    destruct (xs n nc base children) as [b|] eqn:E; [|discriminate]. injection Hr as <-.
    assert (In (s ++ c ++ r, f v w) (List.map (fun r0 => (fst r0, f (snd r0) (lookup (drop_cond n nc (fst r0)) b))) children)) as HI.
    { apply in_map_iff. exists (s ++ c ++ r, v). split; auto. simpl. rewrite drop_cond_app by assumption.
      rewrite (lookup_In _ w); auto; [now apply (xs_unique n nc base children)|now apply (xs_In n nc base children)]. }
    destruct incl; auto. apply filter_In. split; auto. simpl. rewrite cond_of_app by assumption.
    destruct Hkeep as [|Hk]; [discriminate|]. apply key_eqb_neq in Hk. now rewrite Hk.
  Qed.
  Lemma compare_no_base s c r v :
    List.length s = n -> List.length c = nc -> In (s ++ c ++ r, v) children ->
    (forall w, ~ In (s ++ base ++ r, w) children) -> In (s ++ c ++ r, f v NaN) res.
  Proof.
    intros Hs Hc H1 H2. unfold compare_with_base in Hr.
    destruct (xs n nc base children) as [b|] eqn:E; [|discriminate]. injection Hr as <-.
    assert (In (s ++ c ++ r, f v NaN) (List.map (fun r0 => (fst r0, f (snd r0) (lookup (drop_cond n nc (fst r0)) b))) children)) as HI.
    { apply in_map_iff. exists (s ++ c ++ r, v). split; auto. simpl. rewrite drop_cond_app by assumption.
      rewrite lookup_None; auto. now apply (xs_not_In n nc base children). }
    destruct incl; auto. apply filter_In. split; auto. simpl. rewrite cond_of_app by assumption.
    destruct (key_eqb c base) eqn:E2; auto. apply key_eqb_eq in E2. subst c. destruct (H2 v H1).
  Qed.
End Compare.

(** C26 *)
Lemma percent_value v b : b <> 0 -> xmul (xsub (xdiv (Fin v) (Fin b)) (Fin 1)) (Fin 100) = Fin ((v / b - 1) * 100).
Proof. intros H. simpl. destruct (Req_EM_T b 0); [contradiction|]. reflexivity. Qed.

(** MH *)
Lemma drop_strata_app n nc ns (s c h r : key) :
  List.length s = n -> List.length c = nc -> List.length h = ns -> drop_strata n nc ns (s ++ c ++ h ++ r) = s ++ c ++ r.
Proof.
  intros Hs Hc Hh. unfold drop_strata. rewrite (app_assoc s c (h ++ r)).
  rewrite firstn_app_len by (rewrite app_length; lia). rewrite app_assoc.
  rewrite skipn_app_len by (rewrite !app_length; lia). now rewrite app_assoc.
Qed.
Lemma key_split4 n nc ns (k : key) : (n + nc + ns <= List.length k)%nat ->
  exists s c h r, k = s ++ c ++ h ++ r /\ List.length s = n /\ List.length c = nc /\ List.length h = ns.
Proof.
  intros H. exists (firstn n k), (firstn nc (skipn n k)), (firstn ns (skipn (n + nc) k)), (skipn (n + nc + ns) k).
  rewrite !firstn_length, !skipn_length. repeat split; try lia.
  rewrite <- (firstn_skipn n k) at 1. f_equal. rewrite <- (firstn_skipn nc (skipn n k)) at 1. f_equal.
  rewrite skipn_skipn. rewrite <- (firstn_skipn ns (skipn (n + nc) k)) at 1. f_equal.
  now rewrite skipn_skipn.
Qed.
Lemma lookup2_In k v fr : NoDup (List.map fst fr) -> In (k, v) fr -> lookup2 k fr = v.
Proof.
  induction fr as [|[k' v'] fr IH]; simpl; [tauto|]. intros Hd H. inversion Hd; subst.
  destruct H as [H|H].
  - injection H as -> ->. now rewrite key_eqb_refl.
  - destruct (key_eqb k' k) eqn:E; auto. apply key_eqb_eq in E as ->.
    destruct H2. change k with (fst (k, v)). now apply in_map.
Qed.
Lemma lookup2_None k fr : ~ In k (List.map fst fr) -> lookup2 k fr = (NaN, NaN).
Proof.
  induction fr as [|[k' v] fr IH]; simpl; auto. intros H. destruct (key_eqb k' k) eqn:E.
  - apply key_eqb_eq in E. tauto.
  - tauto.
Qed.
Lemma finite_values_map_Fin {A} (f : A -> R) l : finite_values (List.map (fun x => Fin (f x)) l) = List.map f l.
Proof. induction l; simpl; auto. now rewrite IHl. Qed.
Lemma xsum_perm_nan (l l' : list num) : Permutation (finite_values l) (finite_values l') ->
  Forall no_inf l -> Forall no_inf l' -> xsum l = xsum l'.
Proof. intros H H1 H2. rewrite !xsum_finite by assumption. f_equal. now apply Rsum_perm. Qed.

(** the filtered and aggregated column of one result key *)
Lemma strata_values n nc ns (s c r : key) (G : key -> num) (f : key * (num * num) -> num) (df : frame2) (hs : list key) :
  List.length s = n -> List.length c = nc -> good_index (n + nc + ns) df ->
  NoDup hs -> Forall (fun h => List.length h = ns) hs ->
  (forall h, In h hs -> exists q, In (s ++ c ++ h ++ r, q) df /\ f (s ++ c ++ h ++ r, q) = G h) ->
  (forall h q, List.length h = ns -> In (s ++ c ++ h ++ r, q) df -> ~ In h hs -> f (s ++ c ++ h ++ r, q) = NaN) ->
  (forall h, In h hs -> exists x, G h = Fin x) ->
  xsum (List.map snd (filter (fun q => key_eqb (fst q) (s ++ c ++ r))
          (List.map (fun q => (drop_strata n nc ns (fst q), f q)) df))) = xsum (List.map G hs).
Proof.
  intros Hs Hc [Hd Hl] Hn Hh Hin Hout Hfin.
  set (P := fun q : key * (num * num) => key_eqb (drop_strata n nc ns (fst q)) (s ++ c ++ r)).
  assert (List.map snd (filter (fun q => key_eqb (fst q) (s ++ c ++ r)) (List.map (fun q => (drop_strata n nc ns (fst q), f q)) df)) =
          List.map f (filter P df)) as ->.
  { unfold P. clear. induction df as [|q df IH]; simpl; auto. destruct (key_eqb (drop_strata n nc ns (fst q)) (s ++ c ++ r)); simpl; now rewrite IH. }
  set (strat := fun k : key => firstn ns (skipn (n + nc) k)).
  assert (forall q, In q (filter P df) -> exists h, fst q = s ++ c ++ h ++ r /\ List.length h = ns /\ strat (fst q) = h) as HP.
  { intros [k q] Hq. apply filter_In in Hq as [Hq Hp]. unfold P in Hp. apply key_eqb_eq in Hp. simpl in Hp.
    destruct (key_split4 n nc ns k) as (s' & c' & h & r' & -> & H1 & H2 & H3); [eauto|].
    rewrite drop_strata_app in Hp by assumption.
    apply app_len_inj in Hp as [-> Hp]; [|congruence]. apply app_len_inj in Hp as [-> ->]; [|congruence].
    exists h. split; [reflexivity|]. split; auto. simpl. unfold strat. rewrite app_assoc. rewrite skipn_app_len by (rewrite app_length; lia).
    now apply firstn_app_len. }
  (* finite values of both lists are permutations *)
  set (inh := fun q : key * (num * num) => if in_dec (list_eq_dec string_dec) (strat (fst q)) hs then true else false).
  assert (Permutation (List.map (fun q => strat (fst q)) (filter inh (filter P df))) hs) as Hperm.
  { apply NoDup_Permutation; auto.
    - apply (NoDup_map_inj_in fst); [now do 2 apply NoDup_map_filter|].
      intros x y Hx Hy E. apply filter_In in Hx as [Hx _]. apply filter_In in Hy as [Hy _].
      destruct (HP _ Hx) as (h & Ex & _ & E1). destruct (HP _ Hy) as (h' & Ey & _ & E2). congruence.
    - intros h. split.
      + rewrite in_map_iff. intros [q [<- Hq]]. apply filter_In in Hq as [_ Hq]. unfold inh in Hq.
        destruct (in_dec _ (strat (fst q)) hs); [assumption|discriminate].
      + intros H. destruct (Hin h H) as [q [Hq _]]. rewrite Forall_forall in Hh. specialize (Hh h H).
        assert (In (s ++ c ++ h ++ r, q) (filter P df)) as Hq'.
        { apply filter_In. split; auto. unfold P. apply key_eqb_eq. simpl. now apply drop_strata_app. }
        apply in_map_iff. exists (s ++ c ++ h ++ r, q). destruct (HP _ Hq') as (h' & E1 & _ & E2). simpl in *.
        assert (h' = h) as ->. { apply app_inv_head in E1. apply app_inv_head in E1. apply app_inv_tail in E1. now symmetry. }
        split; auto. apply filter_In. split; auto. unfold inh. simpl. rewrite E2. destruct (in_dec _ h hs); auto. }
  assert (forall q, In q (filter P df) -> inh q = true -> f q = G (strat (fst q))) as HfG.
  { intros q Hq Hi. destruct (HP _ Hq) as (h & E1 & _ & E2). unfold inh in Hi. rewrite E2 in *.
    destruct (in_dec _ h hs) as [Hhs|]; [|discriminate]. destruct (Hin _ Hhs) as [q' [Hq' <-]].
    apply filter_In in Hq as [Hq _]. destruct q as [k v]. simpl in E1. subst k. f_equal. f_equal.
    pose proof (lookup2_In _ _ _ Hd Hq). pose proof (lookup2_In _ _ _ Hd Hq'). congruence. }
  assert (forall q, In q (filter P df) -> inh q = false -> f q = NaN) as HfN.
  { intros q Hq Hi. destruct (HP _ Hq) as (h & E1 & E3 & E2). unfold inh in Hi. rewrite E2 in *.
    destruct (in_dec _ h hs) as [|Hhs]; [discriminate|]. apply filter_In in Hq as [Hq _].
    destruct q as [k v]. simpl in E1. subst k. eapply Hout; eauto. }
  assert (finite_values (List.map f (filter P df)) = finite_values (List.map (fun q => G (strat (fst q))) (filter inh (filter P df)))) as EF.
  { revert HfG HfN. generalize (filter P df). clear. intros l. induction l as [|q l IH]; intros H1 H2; auto.
    simpl. destruct (inh q) eqn:E; simpl.
    - rewrite (H1 q) by (auto; now left). rewrite IH by (intros; auto using in_cons). reflexivity.
    - rewrite (H2 q) by (auto; now left). simpl. apply IH; intros; auto using in_cons. }
  apply xsum_perm_nan.
  - rewrite EF. apply finite_values_perm. rewrite <- (map_map (fun q => strat (fst q)) G). now apply Permutation_map.
  - apply Forall_forall. intros x Hx. apply in_map_iff in Hx as [q [<- Hq]]. destruct (inh q) eqn:E.
    + rewrite HfG by assumption. unfold inh in E. destruct (in_dec _ (strat (fst q)) hs) as [Hhs|]; [|discriminate].
      destruct (Hfin _ Hhs) as [x ->]. split; discriminate.
    + rewrite HfN by assumption. split; discriminate.
  - apply Forall_forall. intros x Hx. apply in_map_iff in Hx as [h [<- Hhs]]. destruct (Hfin _ Hhs) as [x ->]. split; discriminate.
Qed.

Lemma key_eqb_app_base (a b : key) : key_eqb a b = true -> a = b.
Proof. apply key_eqb_eq. Qed.

Theorem mh_correct n nc ns base incl (df : frame2) res (s c r : key) (hs : list key) (ka na kb nb : key -> R) :
  mh n nc ns base incl df = Some res ->
  List.length base = nc -> List.length s = n -> List.length c = nc ->
  NoDup (List.map fst df) -> (forall k q, In (k, q) df -> (n + nc + ns <= List.length k)%nat) ->
  incl = true \/ c <> base ->
  hs <> [] -> NoDup hs -> Forall (fun h => List.length h = ns) hs ->
  (forall h, List.length h = ns -> (In h hs <-> (exists q, In (s ++ c ++ h ++ r, q) df) /\ (exists q, In (s ++ base ++ h ++ r, q) df))) ->
  (forall h, In h hs -> In (s ++ c ++ h ++ r, (Fin (ka h), Fin (na h))) df /\ In (s ++ base ++ h ++ r, (Fin (kb h), Fin (nb h))) df /\ na h + nb h <> 0) ->
  Rsum (List.map (fun h => kb h * na h / (na h + nb h)) hs) <> 0 ->
  In (s ++ c ++ r, Fin (mh_textbook (List.map (fun h => (ka h, na h, kb h, nb h)) hs))) res.
Proof.
  intros Hmh Hb Hs Hc Hd Hl Hkeep Hne Hn Hlen Hiff Hval Hden. unfold mh in Hmh.
  destruct (xs n nc base df) as [b|] eqn:E; [|discriminate].
  assert (good_index (n + nc + ns) df) as Hg by (split; auto).
  assert (good_index (n + nc) df) as Hg'. { split; auto. intros k v H. specialize (Hl _ _ H). lia. }
  pose proof (xs_unique _ _ _ _ _ Hg' E) as Hbd.
  assert (forall h, In h hs -> lookup2 (drop_cond n nc (s ++ c ++ h ++ r)) b = (Fin (kb h), Fin (nb h))) as Hlk.
  { intros h Hh. rewrite drop_cond_app by assumption. apply lookup2_In; auto. eapply xs_In; eauto. apply Hval, Hh. }
  assert (forall h q, List.length h = ns -> In (s ++ c ++ h ++ r, q) df -> ~ In h hs ->
          lookup2 (drop_cond n nc (s ++ c ++ h ++ r)) b = (NaN, NaN)) as Hlk'.
  { intros h q Hh Hq Hni. rewrite drop_cond_app by assumption. apply lookup2_None.
    eapply xs_not_In; eauto. intros w Hw. apply Hni. apply Hiff; auto. split; eauto. }
  injection Hmh as <-.
  set (W := fun q : num * num * (num * num) => xdiv (Fin 1) (xadd (snd (fst q)) (snd (snd q)))).
  set (joined := List.map (fun r0 => (fst r0, (snd r0, lookup2 (drop_cond n nc (fst r0)) b))) df).
  set (numer := List.map (fun r0 => let '((ka0, na0), (kb0, nb0)) := snd r0 in
     (drop_strata n nc ns (fst r0), xmul (xmul ka0 nb0) (W (snd r0)))) joined).
  set (denom := List.map (fun r0 => let '((ka0, na0), (kb0, nb0)) := snd r0 in
     (drop_strata n nc ns (fst r0), xmul (xmul kb0 na0) (W (snd r0)))) joined).
  set (fn := fun q : key * (num * num) => xmul (xmul (fst (snd q)) (snd (lookup2 (drop_cond n nc (fst q)) b)))
                                        (W (snd q, lookup2 (drop_cond n nc (fst q)) b))).
  set (fd := fun q : key * (num * num) => xmul (xmul (fst (lookup2 (drop_cond n nc (fst q)) b)) (snd (snd q)))
                                        (W (snd q, lookup2 (drop_cond n nc (fst q)) b))).
  assert (numer = List.map (fun q => (drop_strata n nc ns (fst q), fn q)) df) as En.
  { unfold numer, joined. rewrite map_map. apply map_ext. intros [k [x y]]. unfold fn. simpl.
    destruct (lookup2 (drop_cond n nc k) b); reflexivity. }
  assert (denom = List.map (fun q => (drop_strata n nc ns (fst q), fd q)) df) as Ed.
  { unfold denom, joined. rewrite map_map. apply map_ext. intros [k [x y]]. unfold fd. simpl.
    destruct (lookup2 (drop_cond n nc k) b); reflexivity. }
  assert (forall h, In h hs -> W ((Fin (ka h), Fin (na h)), (Fin (kb h), Fin (nb h))) = Fin (/ (na h + nb h))) as HW.
  { intros h Hh. unfold W. simpl. destruct (Req_EM_T (na h + nb h) 0); [destruct (Hval h Hh) as (_ & _ & Hz); contradiction|].
    f_equal. unfold Rdiv. ring. }
  assert (xsum (List.map snd (filter (fun q => key_eqb (fst q) (s ++ c ++ r)) numer)) =
          Fin (Rsum (List.map (fun h => ka h * nb h / (na h + nb h)) hs))) as Sn.
  { rewrite En. rewrite (strata_values n nc ns s c r (fun h => Fin (ka h * nb h / (na h + nb h))) fn df hs); auto.
    - rewrite xsum_finite; [now rewrite finite_values_map_Fin|]. apply Forall_map, Forall_forall. intros; split; discriminate.
    - intros h Hh. exists (Fin (ka h), Fin (na h)). split; [apply Hval, Hh|]. unfold fn. cbn [fst snd].
      rewrite (Hlk h Hh), (HW h Hh). reflexivity.
    - intros h q Hh Hq Hni. unfold fn. cbn [fst snd]. rewrite (Hlk' h q Hh Hq Hni). simpl. destruct (fst q); reflexivity.
    - intros h Hh. eexists. reflexivity. }
  assert (xsum (List.map snd (filter (fun q => key_eqb (fst q) (s ++ c ++ r)) denom)) =
          Fin (Rsum (List.map (fun h => kb h * na h / (na h + nb h)) hs))) as Sd.
  { rewrite Ed. rewrite (strata_values n nc ns s c r (fun h => Fin (kb h * na h / (na h + nb h))) fd df hs); auto.
    - rewrite xsum_finite; [now rewrite finite_values_map_Fin|]. apply Forall_map, Forall_forall. intros; split; discriminate.
    - intros h Hh. exists (Fin (ka h), Fin (na h)). split; [apply Hval, Hh|]. unfold fd. cbn [fst snd].
      rewrite (Hlk h Hh), (HW h Hh). reflexivity.
    - intros h q Hh Hq Hni. unfold fd. cbn [fst snd]. rewrite (Hlk' h q Hh Hq Hni). reflexivity.
    - intros h Hh. eexists. reflexivity. }
  set (at_ := fun (g : key) (fr : list (key * num)) => xsum (List.map snd (filter (fun r0 => key_eqb (fst r0) g) fr))).
  assert (In (s ++ c ++ r) (sort_uniq (List.map fst numer))) as Hin.
  { apply sort_uniq_In. destruct hs as [|h hs']; [congruence|]. rewrite En, map_map. apply in_map_iff.
    exists (s ++ c ++ h ++ r, (Fin (ka h), Fin (na h))). simpl. inversion Hlen; subst.
    split; [now apply drop_strata_app|]. apply Hval. now left. }
  set (res := List.map (fun g => (g, xmul (xsub (xdiv (at_ g numer) (at_ g denom)) (Fin 1)) (Fin 100))) (sort_uniq (List.map fst numer))).
  assert (In (s ++ c ++ r, Fin (mh_textbook (List.map (fun h => (ka h, na h, kb h, nb h)) hs))) res) as HI.
  { apply in_map_iff. exists (s ++ c ++ r). split; auto. unfold at_. rewrite Sn, Sd. rewrite percent_value by assumption.
    unfold mh_textbook. rewrite !map_map. reflexivity. }
  change (In (s ++ c ++ r, Fin (mh_textbook (List.map (fun h => (ka h, na h, kb h, nb h)) hs)))
    (if incl then res else filter (fun r0 => negb (key_eqb (cond_of n nc (fst r0)) base)) res)).
  destruct incl; auto. apply filter_In. split; auto. cbn [fst]. rewrite cond_of_app by assumption.
  destruct Hkeep as [|Hk]; [discriminate|]. apply key_eqb_neq in Hk. now rewrite Hk.
Qed.
Theorem mh_raises n nc ns base incl (df : frame2) :
  mh n nc ns base incl df = None <-> (forall k q, In (k, q) df -> cond_of n nc k <> base).
Proof. rewrite <- xs_None. unfold mh. destruct (xs n nc base df); split; congruence. Qed.

(** the textbook estimator *)
Lemma mh_one_stratum ka na kb nb : na <> 0 -> nb <> 0 -> kb <> 0 -> na + nb <> 0 ->
  mh_textbook [(ka, na, kb, nb)] = (ka / na / (kb / nb) - 1) * 100.
Proof. intros. unfold mh_textbook. simpl. field. repeat split; auto. Qed.
Lemma mh_common_factor f l :
  (forall ka na kb nb, In (ka, na, kb, nb) l -> nb <> 0 /\ na <> 0 /\ ka / na = f * (kb / nb)) ->
  Rsum (List.map (fun q => let '(ka, na, kb, nb) := q in kb * na / (na + nb)) l) <> 0 ->
  mh_textbook l = (f - 1) * 100.
Proof.
  intros H Hd. unfold mh_textbook. f_equal. f_equal.
  assert (Rsum (List.map (fun q => let '(ka, na, kb, nb) := q in ka * nb / (na + nb)) l) =
          f * Rsum (List.map (fun q => let '(ka, na, kb, nb) := q in kb * na / (na + nb)) l)) as ->.
  { clear Hd. induction l as [|[[[ka na] kb] nb] l IH]; simpl; [ring|]. rewrite IH by (intros; apply H; now right).
    destruct (H ka na kb nb) as (H1 & H2 & H3); [now left|].
    assert (ka * nb = f * (kb * na)) as E.
    { apply (Rmult_eq_reg_r (/ na * / nb)); [|apply Rmult_integral_contrapositive_currified; now apply Rinv_neq_0_compat].
      transitivity (ka / na); [field; auto|]. rewrite H3. field; auto. }
    unfold Rdiv. rewrite E. ring. }
  field. exact Hd.
Qed.
