(** CumulativeDistribution in SQL. *)
From Coq Require Import Reals List Bool String Arith Permutation Sorted Lia Lra.
From Verif Require Import M_Num M_Frame L_Frame M_Ops S_Ops L_OpsA L_OpsB L_OpsC M_SqlGlobal L_SqlGlobal M_SqlLeaf S_SqlLeaf L_SqlLeaf L_SqlLeaf2 M_SqlOps S_SqlOps L_SqlOps L_SqlOps2.
Import ListNotations.
Open Scope string_scope.
Open Scope list_scope.

(** ** Sorted lists *)
Lemma ssorted_filter {A} (P : A -> A -> Prop) f l : StronglySorted P l -> StronglySorted P (filter f l).
Proof.
  induction 1 as [|a l H IH HF]; cbn; [constructor|]. destruct (f a); [|assumption]. constructor; [assumption|].
  rewrite Forall_forall in *. intros x Hx. apply filter_In in Hx as [Hx _]. auto.
Qed.
Lemma ssorted_unique {A} (P : A -> A -> Prop) l : forall l', Permutation l l' -> StronglySorted P l -> StronglySorted P l' ->
  (forall a b, In a l -> In b l -> P a b -> P b a -> a = b) -> l = l'.
Proof.
  induction l as [|a l IH]; intros l' Hp Hs Hs' Hanti.
  - apply Permutation_nil in Hp. now subst.
  - destruct l' as [|b l']; [apply Permutation_sym, Permutation_nil in Hp; discriminate|].
    inversion Hs; subst. inversion Hs'; subst. rewrite Forall_forall in *.
    assert (a = b) as ->.
    { assert (In a (b :: l')) as Ha by (apply (Permutation_in _ Hp); now left).
      assert (In b (a :: l)) as Hb by (apply (Permutation_in _ (Permutation_sym Hp)); now left).
      destruct Ha as [->|Ha]; [reflexivity|]. destruct Hb as [->|Hb]; [reflexivity|].
      apply Hanti; auto; [now left|now right]. }
    f_equal. apply IH; auto.
    + now apply Permutation_cons_inv in Hp.
    + intros x y Hx Hy. apply Hanti; now right.
Qed.
Lemma ssorted_rel {A B} (Rl : A -> B -> Prop) (P : A -> A -> Prop) (Q : B -> B -> Prop) l l' :
  Forall2 Rl l l' -> (forall a a' b b', Rl a b -> Rl a' b' -> P a a' -> Q b b') -> StronglySorted P l -> StronglySorted Q l'.
Proof.
  intros H HPQ. induction H as [|a b l l' Hab H IH]; intros Hs; [constructor|]. inversion Hs; subst. constructor; [auto|].
  clear - H H3 HPQ Hab. induction H as [|a' b' l l' Hab' H IH]; [constructor|]. inversion H3; subst. constructor; eauto.
Qed.
Lemma ssorted_impl_in {A} (P Q : A -> A -> Prop) l : (forall a b, In a l -> In b l -> P a b -> Q a b) -> StronglySorted P l -> StronglySorted Q l.
Proof.
  induction l as [|a l IH]; intros H Hs; [constructor|]. inversion Hs; subst. constructor.
  - apply IH; auto. intros x y Hx Hy. apply H; now right.
  - rewrite Forall_forall in *. intros x Hx. apply H; auto; [now left|now right].
Qed.
Lemma NoDup_app_disjoint {A} (a b : list A) : NoDup a -> NoDup b -> (forall x, In x a -> ~ In x b) -> NoDup (a ++ b).
Proof.
  induction 1 as [|x a Hx Ha IH]; cbn; intros Hb H; [exact Hb|]. constructor.
  - intros Hi. apply in_app_or in Hi as [Hi|Hi]; [contradiction|]. apply (H x); [now left|exact Hi].
  - apply IH; [exact Hb|]. intros y Hy. apply H. now right.
Qed.
(** ** Orders *)
Lemma Rcmp_anti a b : Rcmp b a = CompOpp (Rcmp a b).
Proof. unfold Rcmp, Rltb. destruct (Rlt_dec a b), (Rlt_dec b a); try reflexivity; lra. Qed.
Lemma Rcmp_le a b : Rcmp a b <> Gt <-> (a <= b)%R.
Proof. unfold Rcmp, Rltb. destruct (Rlt_dec a b), (Rlt_dec b a); split; intros; try congruence; lra. Qed.
Lemma key_le_anti a b : key_cmp a b <> Gt -> key_cmp b a <> Gt -> a = b.
Proof. rewrite (key_cmp_anti a b). destruct (key_cmp a b) eqn:E; cbn; try congruence. intros _ _. now apply key_cmp_eq. Qed.

Lemma order_cols asc cols : forall e e' a b, key_of cols e = List.map Some a -> key_of cols e' = List.map Some b ->
  order_cmp (List.map (fun c => KCol c (negb asc)) cols) e e' = if asc then key_cmp a b else key_cmp b a.
Proof.
  induction cols as [|c cols IH]; intros e e' [|x a] [|y b] Ha Hb; try discriminate.
  - now destruct asc.
  - cbn [List.map order_cmp okey_cmp]. injection Ha as Hx Ha. injection Hb as Hy Hb. rewrite (IH e e' a b Ha Hb).
    assert (e (Plain c) = Lab x) as -> by (destruct (e (Plain c)); cbn in Hx; congruence).
    assert (e' (Plain c) = Lab y) as -> by (destruct (e' (Plain c)); cbn in Hy; congruence).
    cbn [cell_cmp]. unfold key_cmp. cbn [lex]. destruct asc; cbn [negb]; [destruct (str_cmp x y); reflexivity|].
    rewrite (str_cmp_anti x y). destruct (str_cmp x y); reflexivity.
Qed.

Section Cum.
  Variables (parse : string -> cond) (srt : list okey -> list env -> list env) (t : stable).

  (** the rows in the order of the window, as rows of a frame *)
  Definition ob (idx : list string) (v : string) (e : env) : skey * option R := (key_of idx e, num_at e v).
  Lemma as_frame idx v es (D : rframe) : Permutation (List.map (ob idx v) es) (List.map enc D) ->
    exists D', Permutation D' D /\ Forall2 (fun e d => ob idx v e = enc d) es D'.
  Proof.
    intros H. apply Permutation_map_inv in H as (D' & E & Hp). exists D'. split; [now symmetry|]. clear - E. revert D' E.
    induction es as [|e es IH]; intros [|d D'] E; try discriminate; [constructor|]. cbn [List.map] in E. constructor; [congruence|apply IH; congruence].
  Qed.
  (** running sums *)
  Lemma cum_rows by_ over v o envs es (D' : rframe) :
    let n := List.length by_ in
    Forall2 (fun e d => ob (by_ ++ over) v e = enc d) es D' -> (forall d, In d D' -> exists x, snd d = Fin x) ->
    Forall2 (fun p d => ob (by_ ++ over) v (snd p) = (List.map Some (fst d), num_at (snd p) v) /\
                        value envs (fst p) (snd p) (VCumOver v by_ o) = unf (snd d) /\ exists x, snd d = Fin x)
            (prefixes [] es) (group_cumsum n D').
  Proof.
    intros n H. unfold group_cumsum. change (@nil env) with (@nil env) at 1.
    assert (Forall2 (fun e d => ob (by_ ++ over) v e = enc d) [] []) as H0 by constructor.
    assert (forall d : list string * num, In d [] -> exists x, snd d = Fin x) as H2 by (intros d []). revert H0 H2.
    generalize (@nil env). generalize (@nil (list string * num)).
    induction H as [|e d es D' Hed H IH]; intros sd se H0 H2 Hfin; [constructor|].
    cbn [prefixes cumsum_from].
    assert (Forall2 (fun e d => ob (by_ ++ over) v e = enc d) (se ++ [e]) (sd ++ [d])) as H1 by (apply Forall2_app; auto).
    constructor; [|apply IH; auto].
    2:{ intros q Hq. apply in_app_or in Hq as [Hq|[<-|[]]]; [auto|]. apply Hfin. now left. }
    2:{ intros q Hq. apply Hfin. now right. }
    destruct (Hfin d (or_introl eq_refl)) as [x Hx]. cbn [fst snd]. rewrite Hx. cbn [is_nan].
    assert (key_of (by_ ++ over) e = List.map Some (fst d)) as Ek by (unfold ob, enc in Hed; congruence).
    split; [unfold ob; now rewrite Ek|].
    assert (List.map (fun r => num_at r v) (filter (same_key by_ e) (se ++ [e])) =
            List.map unf (List.map snd (filter (fun q => key_eqb (firstn n (fst q)) (firstn n (fst d))) (sd ++ [d])))) as E.
    { clear - H1 Ek. induction H1 as [|e' d' l l' He H1 IH]; [reflexivity|]. cbn [filter].
      assert (same_key by_ e e' = key_eqb (firstn n (fst d')) (firstn n (fst d))) as ->.
      { unfold same_key. rewrite !(key_of_firstn by_ over). fold n. rewrite Ek. assert (key_of (by_ ++ over) e' = List.map Some (fst d')) as -> by (unfold ob, enc in He; congruence).
        rewrite !firstn_some. unfold key_eqb. destruct (skey_dec _ _) as [E|E], (list_eq_dec _ _ _) as [E'|E']; auto; [apply some_inj in E; congruence|]. exfalso. apply E. now rewrite E'. }
      destruct (key_eqb _ _); [|exact IH]. cbn [List.map]. rewrite IH. f_equal. unfold ob, enc in He. congruence. }
    cbn [value]. rewrite E, filter_app, map_app. cbn [filter]. rewrite key_eqb_refl. cbn [List.map]. rewrite Hx.
    set (before := List.map snd _). assert (Forall no_inf (before ++ [Fin x])) as Hno.
    { apply Forall_app. split; [|repeat constructor; discriminate]. apply Forall_forall. intros y Hy. unfold before in Hy. apply in_map_iff in Hy as [q [<- Hq]].
      apply filter_In in Hq as [Hq _]. destruct (H2 q Hq) as [z ->]. split; discriminate. }
    rewrite xsum_finite by exact Hno. cbn [unf]. split; [|eauto]. unfold ssum. rewrite nonnull_unf. rewrite finite_values_app. cbn [finite_values].
    destruct (finite_values before ++ [x]) eqn:E2; [destruct (finite_values before); discriminate|reflexivity].
  Qed.

  (** the order of CumulativeDistribution on rows of the distribution *)
  Definition case_idx (o : list string) (k : list string) : nat := match k with [l] => index_in l o | _ => List.length o end.
  Definition fcmp (how : cum_how) (n : nat) (a b : list string * num) : comparison :=
    match how with
    | CumOrder o => Nat.compare (case_idx o (skipn n (fst a))) (case_idx o (skipn n (fst b)))
    | _ => frame_cmp how n a b
    end.
  Definition fle (how : cum_how) (asc : bool) (n : nat) (a b : list string * num) : Prop :=
    (if asc then fcmp how n a b else fcmp how n b a) <> Gt.
  Definition window_order (how : cum_how) (asc : bool) (over : list string) (v : string) : list okey :=
    match how with CumValues => [ordered_col how asc v] | _ => List.map (ordered_col how asc) over end.
  Lemma key_of_skipn a b e : key_of b e = skipn (List.length a) (key_of (a ++ b) e).
  Proof. unfold key_of. now rewrite map_app, skipn_app_len by now rewrite map_length. Qed.
  Lemma order_fcmp how asc by_ over v e e' d d' :
    (match how with CumOrder _ => List.length over = 1%nat | _ => True end) ->
    ob (by_ ++ over) v e = enc d -> ob (by_ ++ over) v e' = enc d' ->
    (exists x, snd d = Fin x) -> (exists x, snd d' = Fin x) ->
    order_cmp (window_order how asc over v) e e' = if asc then fcmp how (List.length by_) d d' else fcmp how (List.length by_) d' d.
  Proof.
    intros Hover He He' [x Hx] [y Hy]. set (n := List.length by_).
    assert (key_of over e = List.map Some (skipn n (fst d))) as E1.
    { rewrite (key_of_skipn by_). unfold ob, enc in He. rewrite <- skipn_some. fold n. congruence. }
    assert (key_of over e' = List.map Some (skipn n (fst d'))) as E2.
    { rewrite (key_of_skipn by_). unfold ob, enc in He'. rewrite <- skipn_some. fold n. congruence. }
    destruct how as [|o|].
    - cbn [window_order fcmp frame_cmp]. apply (order_cols asc over _ _ _ _ E1 E2).
    - cbn [window_order fcmp]. destruct over as [|c [|]]; try discriminate. cbn in E1, E2.
      destruct (skipn n (fst d)) as [|l [|]]; try discriminate. destruct (skipn n (fst d')) as [|l' [|]]; try discriminate.
      injection E1 as E1. injection E2 as E2. cbn [List.map ordered_col order_cmp okey_cmp case_idx].
      assert (e (Plain c) = Lab l) as -> by (destruct (e (Plain c)); cbn in E1; congruence).
      assert (e' (Plain c) = Lab l') as -> by (destruct (e' (Plain c)); cbn in E2; congruence).
      cbn [case_value]. rewrite (Nat.compare_antisym (index_in l o) (index_in l' o)). destruct asc; cbn; destruct (Nat.compare _ _); reflexivity.
    - cbn [window_order ordered_col order_cmp okey_cmp fcmp frame_cmp]. rewrite Hx, Hy.
      assert (num_at e v = Some x) as Ex by (unfold ob, enc in He; rewrite Hx in He; cbn in He; congruence).
      assert (num_at e' v = Some y) as Ey by (unfold ob, enc in He'; rewrite Hy in He'; cbn in He'; congruence).
      unfold num_at in *. assert (e (Plain v) = Num x) as -> by (destruct (e (Plain v)); cbn in Ex; congruence).
      assert (e' (Plain v) = Num y) as -> by (destruct (e' (Plain v)); cbn in Ey; congruence).
      cbn [cell_cmp]. rewrite (Rcmp_anti x y). destruct asc; cbn; destruct (Rcmp x y); reflexivity.
  Qed.

  Lemma Forall2_In_r {A B} (P : A -> B -> Prop) l l' : Forall2 P l l' -> forall b, In b l' -> exists a, In a l /\ P a b.
  Proof. induction 1; intros z []; subst; [eexists; split; [now left|eassumption]|]. destruct (IHForall2 z H1) as (a & Ha & Hz). exists a. split; [now right|exact Hz]. Qed.
  Lemma ssorted_rel_in {A B} (Rl : A -> B -> Prop) (P : A -> A -> Prop) (Q : B -> B -> Prop) l l' :
    Forall2 Rl l l' -> (forall a a' b b', In b l' -> In b' l' -> Rl a b -> Rl a' b' -> P a a' -> Q b b') -> StronglySorted P l -> StronglySorted Q l'.
  Proof.
    intros H HPQ Hs. apply (ssorted_rel (fun a b => Rl a b /\ In b l') P Q l l'); [|intros a a' b b' [? ?] [? ?]; eauto|exact Hs].
    clear - H. assert (incl l' l') as Hi by (intros x; auto). revert Hi. generalize l' at 2 3. induction H; intros m Hi; constructor.
    - split; [assumption|]. apply Hi. now left.
    - apply IHForall2. intros z Hz. apply Hi. now right.
  Qed.
  (** lists whose groups are equal are permutations of each other *)
  Lemma groups_perm n (A B : rframe) : NoDup (List.map fst A) -> NoDup (List.map fst B) -> (forall g, S_Ops.group n g A = S_Ops.group n g B) -> Permutation A B.
  Proof.
    intros HA HB H. apply NoDup_Permutation.
    - now apply NoDup_map_inv in HA.
    - now apply NoDup_map_inv in HB.
    - intros r. specialize (H (firstn n (fst r))). split; intros Hr.
      + apply (group_In n (firstn n (fst r)) B r). rewrite <- H. now apply group_In.
      + apply (group_In n (firstn n (fst r)) A r). rewrite H. now apply group_In.
  Qed.
  Lemma sort_by_level_perm n (l : rframe) : NoDup (List.map fst l) -> Permutation (sort_by_level n l) l.
  Proof.
    intros H. unfold sort_by_level. symmetry. apply NoDup_Permutation.
    - now apply NoDup_map_inv in H.
    - apply NoDup_map_inv in H. clear - H. pose proof (ksorted_NoDup _ (level_keys_sorted n l)) as HK. revert HK. generalize (level_keys n l). intros ks HK.
      induction HK as [|g ks Hg HK IH]; [constructor|]. cbn. apply NoDup_app_disjoint; auto.
      + now apply NoDup_filter.
      + intros r Hr Hr'. apply filter_In in Hr as [_ Hr]. apply key_eqb_eq in Hr. apply in_flat_map in Hr' as (g' & Hg' & Hr'). apply filter_In in Hr' as [_ Hr']. apply key_eqb_eq in Hr'.
        apply Hg. congruence.
    - intros r. rewrite in_flat_map. split.
      + intros Hr. exists (firstn n (fst r)). split; [now apply level_keys_here|]. apply filter_In. split; [exact Hr|apply key_eqb_refl].
      + intros (g & _ & Hr). now apply filter_In in Hr as [Hr _].
  Qed.

  Lemma cum_step by_ over how asc v dist (D P : rframe) :
    db_sorts srt -> inv parse srt t dist (by_ ++ over) v D -> (forall d, In d D -> exists x, snd d = Fin x) ->
    (match how with CumOrder _ => List.length over = 1%nat | _ => True end) ->
    (forall a b, In a D -> In b D -> firstn (List.length by_) (fst a) = firstn (List.length by_) (fst b) ->
                 fle how asc (List.length by_) a b -> fle how asc (List.length by_) b a -> a = b) ->
    Permutation P D -> StronglySorted (fle how asc (List.length by_)) P ->
    ~ In (String.append "Cumulative " v) (by_ ++ over) ->
    inv parse srt t (cumulative_sql by_ (by_ ++ over) over how asc dist) (by_ ++ over) (String.append "Cumulative " v)
        (sort_by_level (List.length by_) (group_cumsum (List.length by_) P)).
  Proof.
    intros Hsort (Hsh & Hsc & Hp & HF & Hd & Hl) Hfin Hover Hties HP HPs Hv. set (n := List.length by_) in *.
    pose proof Hsh as (Hnd & _).
    assert (cumulative_sql by_ (by_ ++ over) over how asc dist =
            sel1 (by_ ++ over) (String.append "Cumulative " v) (VCumOver v by_ (window_order how asc over v)) (From dist) None) as E.
    { unfold cumulative_sql. rewrite (shape_vals dist _ v Hsh). cbn [List.map]. unfold sel1, window_order. destruct how; reflexivity. }
    rewrite E.
    assert (NoDup (List.map fst (group_cumsum n P))) as HdP.
    { unfold group_cumsum. rewrite cumsum_from_keys. apply (Permutation_NoDup (l := List.map fst D)); [|exact Hd]. now apply Permutation_map. }
    pose proof (sort_by_level_perm n (group_cumsum n P) HdP) as HS.
    assert (forall r, In r (sort_by_level n (group_cumsum n P)) -> exists d, In d D /\ fst d = fst r) as Hkeys.
    { intros r Hr. apply (Permutation_in _ HS) in Hr. apply (in_map fst) in Hr. unfold group_cumsum in Hr. rewrite cumsum_from_keys in Hr.
      apply in_map_iff in Hr as [d [Ed Hd']]. exists d. split; [|exact Ed]. now apply (Permutation_in _ HP). }
    split; [now apply shape_sel1|]. split; [|split; [|split; [|split]]].
    - assert (forall c, In c ((by_ ++ over) ++ [v]) -> in_source (From dist) (Plain c) = true) as Hin by (intros c; apply (in_from dist _ v _ Hsh)).
      apply scoped_sel1; [| | |exact Hsc].
      + intros c Hc. apply Hin, in_or_app. auto.
      + cbn [vrefs]. intros r [<-|Hr]; [apply Hin, in_or_app; right; now left|]. apply in_app_or in Hr as [Hr|Hr]; apply in_map_iff in Hr as [c [<- Hc]].
        * apply Hin, in_or_app. left. apply in_or_app. auto.
        * assert (In (match c with KCol c0 _ | KCase c0 _ _ => c0 end) ((by_ ++ over) ++ [v])) as Hc'; [|destruct c; apply Hin, Hc'].
          destruct how; cbn in Hc; try (apply in_map_iff in Hc as [c' [<- Hc]]; cbn; apply in_or_app; left; apply in_or_app; auto).
          destruct Hc as [<-|[]]. cbn. apply in_or_app. right. now left.
      + intros r [].
    - rewrite run_sel1 by (auto; reflexivity). cbn [orders]. rewrite run_src_from, where_none.
      set (envs := List.map plain_env (run_sql parse srt dist t)). destruct (Hsort (window_order how asc over v) envs) as [Hsp Hss].
      set (es := srt (window_order how asc over v) envs) in *.
      assert (Permutation (List.map (ob (by_ ++ over) v) es) (List.map enc D)) as HpD.
      { etransitivity; [apply Permutation_map, Hsp|]. unfold envs. rewrite map_map. exact Hp. }
      destruct (as_frame _ _ _ _ HpD) as (D' & HD' & HR).
      assert (forall d, In d D' -> exists x, snd d = Fin x) as Hfin' by (intros d Hd'; apply Hfin, (Permutation_in _ HD'), Hd').
      pose proof (cum_rows by_ over v (window_order how asc over v) envs es D' HR Hfin') as HC. fold n in HC.
      assert (List.map (fun p => (key_of (by_ ++ over) (snd p), value envs (fst p) (snd p) (VCumOver v by_ (window_order how asc over v)))) (prefixes [] es) =
              List.map enc (group_cumsum n D')) as ->.
      { clear - HC. induction HC as [|p d l l' (H1 & H2 & _) HC IH]; [reflexivity|]. cbn [List.map]. rewrite IH. f_equal. unfold enc. rewrite H2. f_equal. unfold ob in H1. congruence. }
      apply Permutation_map. etransitivity; [|symmetry; exact HS].
      apply (groups_perm n); [|exact HdP|].
      + unfold group_cumsum. rewrite cumsum_from_keys. apply (Permutation_NoDup (l := List.map fst D)); [|exact Hd]. now apply Permutation_map, Permutation_sym.
      + intros g. unfold group_cumsum. rewrite !cumsum_group. f_equal.
        apply (ssorted_unique (fle how asc n)).
        * apply group_perm. etransitivity; [exact HD'|now symmetry].
        * apply ssorted_filter. apply (ssorted_rel_in (fun e d => ob (by_ ++ over) v e = enc d) (fun a b => order_cmp (window_order how asc over v) a b <> Gt) _ es D' HR); [|exact Hss].
          intros e e' d d' H1 H2 He He'. rewrite (order_fcmp how asc by_ over v e e' d d') by auto. auto.
        * now apply ssorted_filter.
        * intros a b Ha Hb. apply group_In in Ha as [Ha Ga]. apply group_In in Hb as [Hb Gb].
          apply Hties; [now apply (Permutation_in _ HD')|now apply (Permutation_in _ HD')|congruence].
    - apply Forall_forall. intros r Hr. apply (Permutation_in _ HS) in Hr.
      assert (forall d, In d P -> exists x, snd d = Fin x) as HfinP by (intros d Hd'; apply Hfin, (Permutation_in _ HP), Hd'). clear - Hr HfinP.
      unfold group_cumsum in Hr. revert Hr. assert (forall d : list string * num, In d [] -> exists x, snd d = Fin x) as H0 by (intros d []). revert H0.
      generalize (@nil (list string * num)). induction P as [|d P IH]; intros seen H0 Hr; [destruct Hr|]. cbn [cumsum_from] in Hr. destruct Hr as [<-|Hr].
      + cbn [snd]. destruct (HfinP d (or_introl eq_refl)) as [x ->]. cbn [is_nan]. rewrite xsum_finite; [split; discriminate|].
        apply Forall_app. split; [|repeat constructor; discriminate]. apply Forall_forall. intros y Hy. apply in_map_iff in Hy as [q [<- Hq]]. apply filter_In in Hq as [Hq _].
        destruct (H0 q Hq) as [z ->]. split; discriminate.
      + apply IH with (l := seen ++ [d]); auto.
        * intros q Hq. apply HfinP. now right.
        * intros q Hq. apply in_app_or in Hq as [Hq|[<-|[]]]; [auto|]. apply HfinP. now left.
    - apply (Permutation_NoDup (l := List.map fst (group_cumsum n P))); [|exact HdP]. now apply Permutation_map, Permutation_sym.
    - apply Forall_forall. intros r Hr. destruct (Hkeys r Hr) as (d & Hd' & <-). rewrite Forall_forall in Hl. auto.
  Qed.
End Cum.
