From Coq Require Import List String Ascii Bool Arith NArith Lia.
From Verif Require Import M_SqlText L_SqlText M_SqlColumns S_SqlNames.
Import ListNotations.
Local Open Scope string_scope.
Local Open Scope list_scope.

Lemma upd_same h l c : upd h l c l = c.
Proof. unfold upd. rewrite Nat.eqb_refl. reflexivity. Qed.
Lemma upd_other h l c l' : l' <> l -> upd h l c l' = h l'.
Proof. intros H. unfold upd. apply Nat.eqb_neq in H. rewrite H. reflexivity. Qed.

Lemma truthy_some o : truthy o = true -> exists a, o = Some a /\ a <> "".
Proof.
  destruct o as [a|]; simpl; [|discriminate]. intros H. exists a. split; [reflexivity|].
  intros ->. discriminate.
Qed.
Lemma truthy_intro a : a <> "" -> truthy (Some a) = true.
Proof. intros H. simpl. apply String.eqb_neq in H. rewrite H. reflexivity. Qed.

Definition with_suffix (c : column) (n : N) : column :=
  mkCol (c_expr c) (c_alias_raw c) (c_auto_alias c) n.

Lemma wf_alias c : wf_column c -> exists a, col_alias c = Ok (Some a).
Proof.
  intros (_ & a & Ha & _ & _ & He). unfold col_alias. destruct (c_suffix c) as [|p].
  - rewrite Ha. unfold lift_escape. destruct (escape_alias a) as [b|]; [eauto|congruence].
  - rewrite Ha. unfold lift_escape, escape_alias. rewrite to_of_chars.
    destruct (escape_suffix (to_chars a) (str_of_N (N.pos p))) as [q ->];
      [apply str_of_N_nonempty|apply str_of_N_digits|]. simpl. eauto.
Qed.

Lemma wf_with_suffix c n : wf_column c -> wf_column (with_suffix c n).
Proof. intros (H & a & Ha). split; [exact H|]. exists a. exact Ha. Qed.

Lemma alias_suffix_inj c n m a :
  wf_column c -> n <> 0%N -> m <> 0%N ->
  col_alias (with_suffix c n) = Ok (Some a) -> col_alias (with_suffix c m) = Ok (Some a) -> n = m.
Proof.
  intros (_ & r & Hr & _) Hn Hm. unfold col_alias, with_suffix; simpl. rewrite Hr.
  destruct n as [|n]; [congruence|]. destruct m as [|m]; [congruence|].
  unfold lift_escape, escape_alias. rewrite !to_of_chars.
  intros H1 H2.
  destruct (escape_chars (to_chars r ++ underscore :: str_of_N (N.pos n))) as [b1|] eqn:E1; [|discriminate].
  destruct (escape_chars (to_chars r ++ underscore :: str_of_N (N.pos m))) as [b2|] eqn:E2; [|discriminate].
  simpl in H1, H2. rewrite <- H2 in H1. injection H1 as H1.
  apply (f_equal to_chars) in H1. rewrite !to_of_chars in H1. subst b2.
  eapply escape_suffix_inj; eauto.
Qed.

Lemma mapM_aliases_Forall2 h L als :
  aliases h L = Ok (map Some als) <-> Forall2 (named h) L als.
Proof.
  unfold aliases, named. revert als. induction L as [|l L IH]; intros als; simpl.
  - split; intros H.
    + destruct als; [constructor|discriminate].
    + inversion H; subst. reflexivity.
  - split; intros H.
    + destruct (col_alias (h l)) as [a|e] eqn:E; [|discriminate]. simpl in H.
      destruct (mapM (fun l => col_alias (h l)) L) as [as'|e] eqn:E2; [|discriminate].
      simpl in H. injection H as H. destruct als as [|b bs]; [discriminate|].
      simpl in H. injection H as -> ->. constructor; [exact E|]. apply IH. reflexivity.
    + inversion H as [|? b ? bs Hb Hbs]; subst. rewrite Hb. simpl.
      apply IH in Hbs. rewrite Hbs. reflexivity.
Qed.

Lemma existsb_opt_eqb a als :
  existsb (opt_eqb (Some a)) (map Some als) = true <-> In a als.
Proof.
  rewrite existsb_exists. split.
  - intros (x & Hx & E). apply in_map_iff in Hx as (b & <- & Hb). simpl in E.
    apply String.eqb_eq in E. subst. exact Hb.
  - intros H. exists (Some a). split; [apply in_map; exact H|]. simpl. apply String.eqb_refl.
Qed.

Lemma find_expr_none (h : heap) L e :
  find (fun l => String.eqb (c_expr (h l)) e) L = None <-> ~ In e (map (fun l => c_expr (h l)) L).
Proof.
  split.
  - intros H Hin. apply in_map_iff in Hin as (l & E & Hl).
    eapply find_none in H; [|exact Hl]. simpl in H. rewrite E, String.eqb_refl in H. discriminate.
  - intros H. destruct (find _ L) as [l|] eqn:E; [|reflexivity].
    apply find_some in E as [Hl E]. apply String.eqb_eq in E. exfalso. apply H.
    apply in_map_iff. eauto.
Qed.

Lemma find_ext_in {A} (f g : A -> bool) l : (forall x, In x l -> f x = g x) -> find f l = find g l.
Proof.
  induction l as [|a l IH]; simpl; intros H; [reflexivity|].
  rewrite H by tauto. rewrite IH; [reflexivity|]. intros x Hx; apply H; tauto.
Qed.

Lemma get_alias_ext (h h' : heap) L e : (forall l, In l L -> h' l = h l) -> get_alias h' L e = get_alias h L e.
Proof.
  intros H. unfold get_alias.
  rewrite (find_ext_in _ (fun l => String.eqb (c_expr (h l)) e)) by (intros x Hx; rewrite H; auto).
  destruct (find _ L) as [l|] eqn:E; [|reflexivity]. apply find_some in E as [Hl _]. rewrite H; auto.
Qed.

Lemma Forall2_named_ext h h' L als :
  (forall l, In l L -> h' l = h l) -> Forall2 (named h) L als -> Forall2 (named h') L als.
Proof.
  intros H F. induction F as [|l a L als Hla F IH]; constructor.
  - unfold named. rewrite H by (left; reflexivity). exact Hla.
  - apply IH. intros l' Hl'. apply H. right. exact Hl'.
Qed.

(** The renaming loop: it ends with a fresh alias, or every tried alias was taken. *)
Lemma columns_add_loop fuel : forall h L l als,
  wf_column (h l) -> ~ In l L ->
  ~ In (c_expr (h l)) (map (fun l => c_expr (h l)) L) ->
  Forall2 (named h) L als ->
  (exists h' n a, columns_add fuel h L l = Ok (h', L ++ [l]) /\
     (forall l', l' <> l -> h' l' = h l') /\
     h' l = with_suffix (h l) n /\ (c_suffix (h l) <= n)%N /\ named h' l a /\ ~ In a als /\
     (forall b, named h l b -> ~ In b als -> n = c_suffix (h l)))
  \/ (columns_add fuel h L l = Err RecursionError /\
      forall i, i < fuel -> exists a,
        col_alias (with_suffix (h l) (c_suffix (h l) + N.of_nat i)) = Ok (Some a) /\ In a als).
Proof.
  induction fuel as [|fuel IH]; intros h L l als Hwf Hnl Hne HF.
  { right. split; [reflexivity|]. intros i Hi. lia. }
  cbn [columns_add].
  destruct Hwf as (Hexp & Hraw). assert (Hwf : wf_column (h l)) by (split; assumption).
  apply String.eqb_neq in Hexp. rewrite Hexp.
  destruct (wf_alias _ Hwf) as [a Ha]. rewrite Ha. cbn [bind].
  unfold get_alias. apply find_expr_none in Hne. rewrite Hne. cbn [truthy].
  pose proof HF as HF'. apply mapM_aliases_Forall2 in HF'. rewrite HF'. cbn [bind].
  assert (Hself : with_suffix (h l) (c_suffix (h l)) = h l) by (destruct (h l); reflexivity).
  destruct (existsb (opt_eqb (Some a)) (map Some als)) eqn:Eex.
  - apply existsb_opt_eqb in Eex.
    set (h1 := upd h l (col_add_suffix (h l))).
    assert (Hoth : forall l', l' <> l -> h1 l' = h l') by (intros; apply upd_other; assumption).
    assert (Hh1 : h1 l = with_suffix (h l) (c_suffix (h l) + 1)) by apply upd_same.
    assert (HinL : forall l', In l' L -> h1 l' = h l').
    { intros l' Hl'. apply Hoth. intros ->. contradiction. }
    destruct (IH h1 L l als) as [(h' & n & b & E & Hh' & Hl & Hle & Hb & Hnb & _)|[E Hall]].
    + rewrite Hh1. apply wf_with_suffix. exact Hwf.
    + exact Hnl.
    + rewrite Hh1. simpl. apply find_expr_none in Hne. intros Hin. apply Hne.
      erewrite map_ext_in; [exact Hin|]. intros l' Hl'. simpl. rewrite HinL; auto.
    + eapply Forall2_named_ext; [|exact HF]. exact HinL.
    + left. exists h', n, b. split; [exact E|]. split; [intros l' Hl'; rewrite Hh' by exact Hl'; auto|].
      split. { rewrite Hl, Hh1. unfold with_suffix; simpl. reflexivity. }
      split. { rewrite Hh1 in Hle. simpl in Hle. lia. }
      split; [exact Hb|]. split; [exact Hnb|].
      intros b0 Hb0 Hnb0. exfalso. apply Hnb0. unfold named in Hb0. rewrite Ha in Hb0.
      injection Hb0 as <-. exact Eex.
    + right. split; [exact E|]. intros i Hi. destruct i as [|i].
      * exists a. rewrite N.add_0_r, Hself. auto.
      * destruct (Hall i) as (b & Hb & Hin); [lia|]. exists b. split; [|exact Hin].
        rewrite Hh1 in Hb. cbn [with_suffix c_suffix c_expr c_alias_raw c_auto_alias] in Hb.
        rewrite <- Hb. unfold with_suffix. cbn [c_suffix c_expr c_alias_raw c_auto_alias].
        f_equal. f_equal. lia.
  - left. exists h, (c_suffix (h l)), a. split; [reflexivity|]. split; [reflexivity|].
    split; [symmetry; exact Hself|]. split; [lia|]. split; [exact Ha|]. split; [|reflexivity].
    intros Hin. apply existsb_opt_eqb in Hin. congruence.
Qed.

Lemma seq_images (f : nat -> option string) n als :
  (forall i, i < n -> exists a, f i = Some a /\ In a als) ->
  (forall i j, i < n -> j < n -> f i = f j -> i = j) ->
  n <= List.length als.
Proof.
  intros H1 H2.
  assert (Hnd : NoDup (map f (seq 0 n))).
  { assert (G : forall m k, m + k <= n -> NoDup (map f (seq m k))).
    { intros m k; revert m. induction k as [|k IH]; intros m Hm; simpl; constructor.
      - intros Hin. apply in_map_iff in Hin as (j & E & Hj). apply in_seq in Hj.
        apply H2 in E; lia.
      - apply IH. lia. }
    apply G. lia. }
  assert (Hinc : incl (map f (seq 0 n)) (map Some als)).
  { intros x Hx. apply in_map_iff in Hx as (i & <- & Hi). apply in_seq in Hi.
    destruct (H1 i) as (a & -> & Ha); [lia|]. apply in_map. exact Ha. }
  apply NoDup_incl_length in Hinc; [|exact Hnd].
  rewrite !map_length, seq_length in Hinc. exact Hinc.
Qed.

Lemma Forall2_length {A B} (R : A -> B -> Prop) l1 l2 : Forall2 R l1 l2 -> List.length l1 = List.length l2.
Proof. induction 1; simpl; congruence. Qed.

Lemma NoDup_snoc {A} (l : list A) a : NoDup l -> ~ In a l -> NoDup (l ++ [a]).
Proof.
  intros H Ha. apply NoDup_rev in H. rewrite <- (rev_involutive l).
  change [a] with (rev [a]). rewrite <- rev_app_distr. apply NoDup_rev. simpl.
  constructor; [|exact H]. rewrite <- in_rev. exact Ha.
Qed.

Lemma set_alias_self c a : c_alias_raw c = Some a -> strip_backtick a = a -> set_alias c a = c.
Proof. intros H1 H2. unfold set_alias. rewrite H2, <- H1. destruct c; reflexivity. Qed.

Definition add_result (h : heap) (L : list nat) (l : nat) (h' : heap) (L' : list nat) : Prop :=
  distinct_columns h' L' /\
  (forall l', l' <> l -> h' l' = h l') /\
  c_expr (h' l) = c_expr (h l) /\ wf_column (h' l) /\
  (In (c_expr (h l)) (map (fun l => c_expr (h l)) L) -> L' = L) /\
  (~ In (c_expr (h l)) (map (fun l => c_expr (h l)) L) -> L' = L ++ [l]) /\
  (forall l', In l' L -> col_alias (h' l') = col_alias (h l')).

Lemma columns_add_ok fuel h L l :
  distinct_columns h L -> wf_column (h l) -> List.length L + 2 <= fuel ->
  exists h' L', columns_add fuel h L l = Ok (h', L') /\ add_result h L l h' L'.
Proof.
  intros (Hnd & (als & HF & Hals) & Hwfs) Hwf Hfuel.
  destruct (in_dec string_dec (c_expr (h l)) (map (fun l => c_expr (h l)) L)) as [Hin|Hnin].
  - destruct fuel as [|fuel]; [lia|]. cbn [columns_add].
    destruct Hwf as (Hexp & Hraw). assert (Hwf : wf_column (h l)) by (split; assumption).
    pose proof Hexp as Hexp'. apply String.eqb_neq in Hexp'. rewrite Hexp'.
    destruct (wf_alias _ Hwf) as [a Ha]. rewrite Ha. cbn [bind].
    unfold get_alias.
    destruct (find (fun l0 => String.eqb (c_expr (h l0)) (c_expr (h l))) L) as [l0|] eqn:Ef.
    2:{ apply find_expr_none in Ef. contradiction. }
    apply find_some in Ef as [Hl0 El0]. apply String.eqb_eq in El0.
    pose proof Hwfs as Hwfs'. rewrite Forall_forall in Hwfs'. destruct (Hwfs' _ Hl0) as (_ & r & Hr & Hrne & Hrs & Hre).
    rewrite Hr. rewrite (truthy_intro _ Hrne).
    eexists _, _. split; [reflexivity|].
    assert (Hold : forall l', In l' L -> upd h l (set_alias (h l) r) l' = h l').
    { intros l' Hl'. destruct (Nat.eq_dec l' l) as [->|Hne]; [|apply upd_other; exact Hne].
      rewrite upd_same.
      assert (l0 = l) as ->.
      { clear -Hnd Hl0 Hl' El0. induction L as [|x L IH]; simpl in *; [tauto|].
        inversion Hnd as [|? ? Hx Hnd']; subst.
        destruct Hl0 as [->|Hl0], Hl' as [->|Hl']; auto.
        - exfalso. apply Hx. apply in_map_iff. exists l. split; [symmetry; exact El0|exact Hl'].
        - exfalso. apply Hx. apply in_map_iff. exists l0. split; [exact El0|exact Hl0]. }
      apply set_alias_self; assumption. }
    repeat split.
    + erewrite map_ext_in; [exact Hnd|]. intros l' Hl'. simpl. rewrite Hold; auto.
    + exists als. split; [|exact Hals]. eapply Forall2_named_ext; [|exact HF]. exact Hold.
    + rewrite Forall_forall. intros l' Hl'. rewrite Hold; auto.
    + intros l' Hl'. apply upd_other. exact Hl'.
    + rewrite upd_same. reflexivity.
    + rewrite upd_same. exact Hexp.
    + rewrite upd_same. exists r. simpl. rewrite Hrs. auto.
    + intros H. contradiction.
    + intros l' Hl'. rewrite Hold; auto.
  - assert (Hnl : ~ In l L).
    { intros Hl. apply Hnin. apply in_map_iff. eauto. }
    destruct (columns_add_loop fuel h L l als Hwf Hnl Hnin HF)
      as [(h' & n & a & E & Hh' & Hl & Hle & Hb & Hnb & _)|[E Hall]].
    + exists h', (L ++ [l]). split; [exact E|].
      assert (Hold : forall l', In l' L -> h' l' = h l').
      { intros l' Hl'. apply Hh'. intros ->. contradiction. }
      repeat split.
      * rewrite map_app. simpl. rewrite Hl. simpl.
        erewrite map_ext_in; [|intros l' Hl'; rewrite Hold by exact Hl'; reflexivity].
        apply NoDup_snoc; assumption.
      * exists (als ++ [a]). split.
        -- apply Forall2_app; [|constructor; [exact Hb|constructor]].
           eapply Forall2_named_ext; [|exact HF]. exact Hold.
        -- apply NoDup_snoc; assumption.
      * apply Forall_app. split.
        -- rewrite Forall_forall in *. intros l' Hl'. rewrite Hold; auto.
        -- constructor; [|constructor]. rewrite Hl. apply wf_with_suffix. exact Hwf.
      * exact Hh'.
      * rewrite Hl. reflexivity.
      * rewrite Hl. destruct Hwf; assumption.
      * rewrite Hl. destruct Hwf as [_ Hx]; exact Hx.
      * intros H. contradiction.
      * intros l' Hl'. rewrite Hold; auto.
    + exfalso.
      pose proof (Forall2_length _ _ _ HF) as Hlen.
      assert (fuel - 1 <= List.length als); [|lia].
      apply (seq_images (fun i => match col_alias (with_suffix (h l) (c_suffix (h l) + N.of_nat (S i)))
                                  with Ok o => o | Err _ => None end)).
      * intros i Hi. destruct (Hall (S i)) as (a & -> & Hin); [lia|]. eauto.
      * intros i j Hi Hj Eij.
        destruct (Hall (S i)) as (a & Ea & _); [lia|]. destruct (Hall (S j)) as (b & Eb & _); [lia|].
        rewrite Ea, Eb in Eij. injection Eij as <-.
        assert (En : (c_suffix (h l) + N.of_nat (S i) = c_suffix (h l) + N.of_nat (S j))%N).
        { eapply alias_suffix_inj; [exact Hwf| | |exact Ea|exact Eb]; lia. }
        lia.
Qed.

(** *** Adding many columns *)

Lemma columns_add_all_ok fuel ls : forall h L,
  distinct_columns h L -> Forall (fun l => wf_column (h l)) ls ->
  List.length L + List.length ls + 2 <= fuel ->
  exists h' L', columns_add_all fuel h L ls = Ok (h', L') /\
    distinct_columns h' L' /\ Forall (fun l => wf_column (h' l)) ls /\
    (forall l, ~ In l ls -> h' l = h l) /\ (forall l, c_expr (h' l) = c_expr (h l)) /\
    (exists M, L' = L ++ M /\ incl M ls) /\
    (forall l, In l L -> col_alias (h' l) = col_alias (h l)) /\
    (forall l, In l ls -> exists l', In l' L' /\ c_expr (h l') = c_expr (h l)).
Proof.
  induction ls as [|l ls IH]; intros h L Hd Hwf Hf.
  - exists h, L. split; [reflexivity|]. split; [exact Hd|]. split; [exact Hwf|].
    split; [reflexivity|]. split; [reflexivity|]. split.
    + exists []. rewrite app_nil_r. split; [reflexivity|]. intros x Hx; exact Hx.
    + split; [reflexivity|]. intros l [].
  - inversion Hwf as [|? ? Hl Hls]; subst. simpl in Hf.
    destruct (columns_add_ok fuel h L l Hd Hl) as (h1 & L1 & E1 & Hd1 & Ho1 & He1 & Hw1 & Hin1 & Hnin1 & Hal1); [lia|].
    assert (Hexp : forall x, c_expr (h1 x) = c_expr (h x)).
    { intros x. destruct (Nat.eq_dec x l) as [->|Hne]; [exact He1|]. rewrite Ho1; auto. }
    assert (HL1 : exists M, L1 = L ++ M /\ incl M [l]).
    { destruct (in_dec string_dec (c_expr (h l)) (map (fun l => c_expr (h l)) L)) as [Hi|Hi].
      - exists []. rewrite app_nil_r. split; [auto|]. intros x [].
      - exists [l]. split; [auto|]. apply incl_refl. }
    destruct HL1 as (M1 & -> & HM1).
    destruct (IH h1 (L ++ M1)) as (h' & L' & E & Hd' & Hw' & Ho' & He' & (M & -> & HM) & Hal' & Hex').
    + exact Hd1.
    + rewrite Forall_forall in *. intros x Hx.
      destruct (Nat.eq_dec x l) as [->|Hne]; [exact Hw1|]. rewrite Ho1; auto.
    + rewrite app_length. assert (List.length M1 <= 1); [|lia].
      destruct (in_dec string_dec (c_expr (h l)) (map (fun l => c_expr (h l)) L)) as [Hi|Hi].
      * specialize (Hin1 Hi). rewrite <- (app_nil_r L) in Hin1 at 2. apply app_inv_head in Hin1. subst; simpl; lia.
      * specialize (Hnin1 Hi). apply app_inv_head in Hnin1. subst; simpl; lia.
    + exists h', ((L ++ M1) ++ M). split.
      { cbn [columns_add_all]. rewrite E1. cbn [bind fst snd]. exact E. }
      split; [exact Hd'|]. split.
      { constructor; [|exact Hw'].
        destruct (in_dec Nat.eq_dec l ls) as [Hi|Hi].
        - rewrite Forall_forall in Hw'. apply Hw'. exact Hi.
        - rewrite Ho' by exact Hi. exact Hw1. }
      split. { intros x Hx. simpl in Hx. rewrite Ho' by tauto. apply Ho1. intros ->. tauto. }
      split. { intros x. rewrite He'. apply Hexp. }
      split. { exists (M1 ++ M). rewrite app_assoc. split; [reflexivity|].
               intros x Hx. apply in_app_iff in Hx as [Hx|Hx].
               - apply HM1 in Hx. destruct Hx as [->|[]]. left; reflexivity.
               - right. apply HM. exact Hx. }
      split. { intros x Hx. rewrite Hal' by (apply in_app_iff; left; exact Hx). apply Hal1. exact Hx. }
      intros x [->|Hx].
      * destruct (in_dec string_dec (c_expr (h x)) (map (fun l => c_expr (h l)) L)) as [Hi|Hi].
        -- apply in_map_iff in Hi as (y & Ey & Hy). exists y. split; [|exact Ey].
           apply in_app_iff; left; apply in_app_iff; left; exact Hy.
        -- specialize (Hnin1 Hi). apply app_inv_head in Hnin1. subst M1.
           exists x. split; [|reflexivity]. rewrite !in_app_iff. simpl. tauto.
      * destruct (Hex' x Hx) as (y & Hy & Ey). exists y. split; [exact Hy|].
        rewrite !Hexp in Ey. exact Ey.
Qed.

(** *** Rendering never fails on well-formed columns *)
Lemma wf_col_str c : wf_column c -> exists s, col_str c = Ok s.
Proof.
  intros H. unfold col_str. destruct (String.eqb (c_expr c) ""); [eauto|].
  destruct (negb (truthy (c_alias_raw c)) && negb (c_auto_alias c)); [eauto|].
  destruct (wf_alias _ H) as [a ->]. simpl. destruct (String.eqb (c_expr c) a); eauto.
Qed.

Lemma wf_sql_str h q : Forall (fun l => wf_column (h l)) (q_cols q) -> exists s, sql_str h q = Ok s.
Proof.
  intros H. unfold sql_str.
  assert (G : exists cs, mapM (fun l => col_str (h l)) (q_cols q) = Ok cs).
  { induction (q_cols q) as [|l L IH]; simpl; [eauto|].
    inversion H as [|? ? Hl HL]; subst. destruct (wf_col_str _ Hl) as [s ->]. simpl.
    destruct (IH HL) as [cs ->]. simpl. eauto. }
  destruct G as [cs ->]. simpl. eauto.
Qed.

Lemma is_compatible_spec a b : is_compatible a b = true <->
  q_from a = q_from b /\ q_where a = q_where b /\ q_groupby_cols a = q_groupby_cols b /\
  q_with a = q_with b /\ q_distinct a = false /\ q_distinct b = false.
Proof.
  unfold is_compatible. rewrite !andb_true_iff, !negb_true_iff, !String.eqb_eq. tauto.
Qed.

Lemma sql_merge_ok fuel h t q :
  distinct_columns h (q_cols t) -> Forall (fun l => wf_column (h l)) (q_cols q) ->
  List.length (q_cols t) + List.length (q_cols q) + 2 <= fuel ->
  exists h' t' b, sql_merge fuel h t q = Ok (h', t', b) /\
    (b = false -> h' = h /\ t' = t) /\
    (b = true -> provides h' (TSql t') q /\ distinct_columns h' (q_cols t')) /\
    grows (TSql t) (TSql t') /\
    (forall l, ~ In l (q_cols q) -> h' l = h l) /\
    (forall l, c_expr (h' l) = c_expr (h l)) /\
    (forall l, In l (q_cols t) -> col_alias (h' l) = col_alias (h l)).
Proof.
  intros Hd Hwf Hf. unfold sql_merge.
  pose proof Hd as (_ & _ & Hwft).
  destruct (wf_sql_str h t Hwft) as [s1 E1]. destruct (wf_sql_str h q Hwf) as [s2 E2].
  rewrite E1, E2. cbn [bind].
  destruct (String.eqb s1 s2) eqn:Es.
  { apply String.eqb_eq in Es. subst s2. exists h, t, true. split; [reflexivity|].
    split; [discriminate|]. split. { intros _. split; [|exact Hd]. left. exists s1. auto. }
    split; [left; reflexivity|]. auto. }
  destruct (is_compatible t q) eqn:Ec; cbn [negb].
  2:{ exists h, t, false. split; [reflexivity|]. split; [auto|]. split; [discriminate|].
      split; [left; reflexivity|]. auto. }
  destruct (columns_add_all_ok fuel (q_cols q) h (q_cols t) Hd Hwf Hf)
    as (h' & L' & E & Hd' & Hw' & Ho' & He' & (M & -> & HM) & Hal' & Hex').
  rewrite E. cbn [bind fst snd]. eexists _, _, _. split; [reflexivity|].
  split; [discriminate|]. apply is_compatible_spec in Ec as (C1 & C2 & C3 & C4 & C5 & C6).
  split.
  { intros _. split; [|exact Hd']. right. eexists. split; [reflexivity|]. simpl.
    do 6 (split; [assumption|]). intros l Hl. destruct (Hex' l Hl) as (l' & Hl' & El).
    exists l'. rewrite !He'. auto. }
  split. { right. exists t, M. auto. }
  auto.
Qed.

(** *** Dictionaries *)
Lemma dlookup_In d a t : dlookup d a = Some t -> In (a, t) d.
Proof.
  induction d as [|[k u] d IH]; simpl; [discriminate|].
  destruct (String.eqb_spec k a) as [->|Hk]; intros H; [left; congruence|right; auto].
Qed.
Lemma dlookup_None d a : dlookup d a = None <-> ~ In a (dkeys d).
Proof.
  induction d as [|[k u] d IH]; simpl; [tauto|].
  destruct (String.eqb_spec k a) as [->|Hk].
  - split; [discriminate|]. intros H; exfalso; apply H; auto.
  - rewrite IH. split; intros H; [intros [E|E]; [congruence|tauto]|]. tauto.
Qed.
Lemma In_dlookup d a t : NoDup (dkeys d) -> In (a, t) d -> dlookup d a = Some t.
Proof.
  induction d as [|[k u] d IH]; simpl; intros Hnd; [tauto|].
  inversion Hnd as [|? ? Hk Hnd']; subst. intros [E|H].
  - injection E as -> ->. rewrite String.eqb_refl. reflexivity.
  - destruct (String.eqb_spec k a) as [->|Hne]; [|auto].
    exfalso. apply Hk. apply in_map_iff. exists (a, t). auto.
Qed.
Lemma dset_new d a t : ~ In a (dkeys d) -> dset d a t = d ++ [(a, t)].
Proof.
  induction d as [|[k u] d IH]; simpl; intros H; [reflexivity|].
  destruct (String.eqb_spec k a) as [->|Hk]; [exfalso; apply H; auto|]. rewrite IH; [reflexivity|tauto].
Qed.
Lemma dset_split d a t : dlookup d a = Some t -> exists d1 d2,
  d = d1 ++ (a, t) :: d2 /\ ~ In a (dkeys d1) /\ forall u, dset d a u = d1 ++ (a, u) :: d2.
Proof.
  induction d as [|[k u] d IH]; simpl; [discriminate|].
  destruct (String.eqb_spec k a) as [->|Hk]; intros H.
  - injection H as ->. exists [], d. auto.
  - destruct (IH H) as (d1 & d2 & -> & Hn & Hs). exists ((k, u) :: d1), d2. split; [reflexivity|].
    split; [simpl; intros [E|E]; [congruence|tauto]|]. intros v. rewrite Hs. reflexivity.
Qed.

Definition rel_kt (kt kt' : string * table) : Prop := fst kt' = fst kt /\ grows (snd kt) (snd kt').
Lemma rel_kt_refl d : Forall2 rel_kt d d.
Proof. induction d; constructor; auto. split; [reflexivity|left; reflexivity]. Qed.

Lemma rel_kt_keys d d' : Forall2 rel_kt d d' -> dkeys d' = dkeys d.
Proof. induction 1 as [|x y l l' [H _] _ IH]; simpl; [reflexivity|]. rewrite H, IH. reflexivity. Qed.

(** *** Fresh aliases *)
Lemma iter_add_suffix_chars k a :
  to_chars (Nat.iter k add_suffix a) = Nat.iter k add_suffix_chars (to_chars a).
Proof.
  induction k as [|k IH]; [reflexivity|].
  unfold Nat.iter in *. cbn [nat_rect]. unfold add_suffix at 1. rewrite to_of_chars, IH. reflexivity.
Qed.
Lemma iter_add_suffix_inj' a j k :
  Nat.iter (S j) add_suffix a = Nat.iter (S k) add_suffix a -> j = k.
Proof.
  intros H. apply (f_equal to_chars) in H. rewrite !iter_add_suffix_chars in H.
  eapply iter_add_suffix_inj; exact H.
Qed.
Lemma iter_shift k a : Nat.iter k add_suffix (add_suffix a) = Nat.iter (S k) add_suffix a.
Proof.
  induction k as [|k IH]; [reflexivity|]. unfold Nat.iter in *. cbn [nat_rect] in *. rewrite IH. reflexivity.
Qed.

Lemma iter_escapes (ks : list string) a n :
  (forall i, i <= n -> In (Nat.iter i add_suffix a) ks) -> n <= List.length ks.
Proof.
  intros H. apply (seq_images (fun i => Some (Nat.iter (S i) add_suffix a)) n ks).
  - intros i Hi. eexists. split; [reflexivity|]. apply H. lia.
  - intros i j _ _ E. apply (iter_add_suffix_inj' a). congruence.
Qed.

Lemma existsb_eqb_In a ks : existsb (String.eqb a) ks = true <-> In a ks.
Proof.
  rewrite existsb_exists. split.
  - intros (x & Hx & E). apply String.eqb_eq in E. subst. exact Hx.
  - intros H. exists a. rewrite String.eqb_refl. auto.
Qed.

Lemma fresh_alias_spec fuel ks : forall a,
  (exists b, fresh_alias fuel ks a = Some b /\ ~ In b ks /\ (~ In a ks -> b = a)) \/
  (fresh_alias fuel ks a = None /\ forall i, i <= fuel -> In (Nat.iter i add_suffix a) ks).
Proof.
  induction fuel as [|fuel IH]; intros a; simpl.
  - destruct (existsb (String.eqb a) ks) eqn:E.
    + right. split; [reflexivity|]. intros i Hi. replace i with 0 by lia.
      apply existsb_eqb_In. exact E.
    + left. exists a. split; [reflexivity|]. split; [|reflexivity].
      intros H. apply existsb_eqb_In in H. congruence.
  - destruct (existsb (String.eqb a) ks) eqn:E.
    + apply existsb_eqb_In in E. destruct (IH (add_suffix a)) as [(b & Hb & Hn & _)|[Hn Hall]].
      * left. exists b. split; [exact Hb|]. split; [exact Hn|]. contradiction.
      * right. split; [exact Hn|]. intros [|i] Hi; [exact E|].
        rewrite <- iter_shift. apply Hall. lia.
    + left. exists a. split; [reflexivity|]. split; [|reflexivity].
      intros H. apply existsb_eqb_In in H. congruence.
Qed.

Lemma fresh_alias_ok fuel ks a : List.length ks + 1 <= fuel ->
  exists b, fresh_alias fuel ks a = Some b /\ ~ In b ks /\ (~ In a ks -> b = a).
Proof.
  intros Hf. destruct (fresh_alias_spec fuel ks a) as [H|[_ H]]; [exact H|].
  apply iter_escapes in H. lia.
Qed.

(** *** Datasources.merge *)
Definition total_cols (d : dsources) : nat :=
  fold_right (fun kt n => List.length (cols_of (snd kt)) + n) 0 d.

Lemma total_cols_app d1 d2 : total_cols (d1 ++ d2) = total_cols d1 + total_cols d2.
Proof. induction d1; simpl; lia. Qed.
Lemma total_cols_In d k t : In (k, t) d -> List.length (cols_of t) <= total_cols d.
Proof. induction d as [|[a u] d IH]; simpl; [tauto|]. intros [E|H]; [injection E as -> ->; lia|apply IH in H; lia]. Qed.

Definition fresh_cols (d : dsources) (q : sql) : Prop :=
  forall k t l, In (k, t) d -> In l (cols_of t) -> ~ In l (q_cols q).

Lemma merge_scan_ok fuel q alias d : forall h pre,
  (forall k t, In (k, TSql t) d -> distinct_columns h (q_cols t)) ->
  Forall (fun l => wf_column (h l)) (q_cols q) ->
  total_cols d + List.length (q_cols q) + 2 <= fuel ->
  exists h' d' r, merge_scan fuel h pre d alias q = Ok (h', pre ++ d', r) /\
    Forall2 rel_kt d d' /\
    (forall l, ~ In l (q_cols q) -> h' l = h l) /\
    (forall l, c_expr (h' l) = c_expr (h l)) /\
    match r with
    | None => h' = h /\ d' = d
    | Some a => exists t', In (a, TSql t') d' /\ provides h' (TSql t') q /\
        distinct_columns h' (q_cols t') /\
        (forall k u, In (k, u) d' -> k <> a -> In (k, u) d)
    end.
Proof.
  induction d as [|[a t] d IH]; intros h pre Hd Hwf Hf.
  { exists h, [], None. simpl. rewrite app_nil_r. repeat split; constructor. }
  cbn [merge_scan]. simpl in Hf.
  assert (Hskip : exists h' d' r, merge_scan fuel h (pre ++ [(a, t)]) d alias q = Ok (h', pre ++ d', r) /\
    Forall2 rel_kt ((a, t) :: d) d' /\
    (forall l, ~ In l (q_cols q) -> h' l = h l) /\
    (forall l, c_expr (h' l) = c_expr (h l)) /\
    match r with
    | None => h' = h /\ d' = (a, t) :: d
    | Some a0 => exists t', In (a0, TSql t') d' /\ provides h' (TSql t') q /\
        distinct_columns h' (q_cols t') /\
        (forall k u, In (k, u) d' -> k <> a0 -> In (k, u) ((a, t) :: d))
    end).
  { destruct (IH h (pre ++ [(a, t)])) as (h' & d' & r & E & HF & Ho & He & Hr).
    - intros k u Hk. apply (Hd k u). right. exact Hk.
    - exact Hwf.
    - lia.
    - exists h', ((a, t) :: d'), r. split. { rewrite E. rewrite <- app_assoc. reflexivity. }
      split. { constructor; [split; [reflexivity|left; reflexivity]|exact HF]. }
      split; [exact Ho|]. split; [exact He|]. destruct r as [a0|].
      + destruct Hr as (t' & Hin & Hp & Hdd & Hk). exists t'. split; [right; exact Hin|].
        split; [exact Hp|]. split; [exact Hdd|]. intros k u [E0|Hu] Hne; [left; exact E0|right; apply Hk; assumption].
      + destruct Hr as [-> ->]. auto. }
  destruct (String.eqb a alias); [exact Hskip|].
  destruct t as [t|s]; [|exact Hskip].
  destruct (sql_merge_ok fuel h t q) as (h' & t' & b & E & Hfalse & Htrue & Hg & Ho & He & Ha).
  - apply (Hd a). left. reflexivity.
  - exact Hwf.
  - simpl in Hf. lia.
  - rewrite E. cbn [bind]. destruct b.
    + destruct (Htrue eq_refl) as [Hp Hdc]. exists h', ((a, TSql t') :: d), (Some a).
      split; [reflexivity|]. split. { constructor; [split; [reflexivity|exact Hg]|apply rel_kt_refl]. }
      split; [exact Ho|]. split; [exact He|]. exists t'. split; [left; reflexivity|].
      split; [exact Hp|]. split; [exact Hdc|]. intros k u [E0|Hu] Hne; [injection E0 as <- _; congruence|right; exact Hu].
    + destruct (Hfalse eq_refl) as [-> ->]. exact Hskip.
Qed.

Lemma provides_self h q : Forall (fun l => wf_column (h l)) (q_cols q) -> provides h (TSql q) q.
Proof. intros H. left. destruct (wf_sql_str h q H) as [s E]. exists s. auto. Qed.

Lemma Forall2_rel_In d d' k t : Forall2 rel_kt d d' -> In (k, t) d -> exists t', In (k, t') d' /\ grows t t'.
Proof.
  induction 1 as [|[a u] [b v] l l' [E G] _ IH]; simpl; [tauto|]. simpl in E, G. subst b.
  intros [H|H]; [injection H as -> ->; exists v; auto|]. destruct (IH H) as (t' & ? & ?). eauto.
Qed.

Lemma Forall2_rel_In_inv d d' k t' : Forall2 rel_kt d d' -> In (k, t') d' -> exists t, In (k, t) d /\ grows t t'.
Proof.
  induction 1 as [|[a u] [b v] l l' [E G] _ IH]; simpl; [tauto|]. simpl in E, G. subst b.
  intros [H|H]; [injection H as -> ->; exists u; auto|]. destruct (IH H) as (t & ? & ?). eauto.
Qed.

Lemma NoDup_keys_unique d k t u : NoDup (dkeys d) -> In (k, t) d -> In (k, u) d -> t = u.
Proof. intros H H1 H2. apply In_dlookup in H1; [|exact H]. apply In_dlookup in H2; [|exact H]. congruence. Qed.

Lemma distinct_ext h h' L :
  (forall l, In l L -> h' l = h l) -> distinct_columns h L -> distinct_columns h' L.
Proof.
  intros H (H1 & (als & H2 & H3) & H4). split; [|split].
  - erewrite map_ext_in; [exact H1|]. intros l Hl. simpl. rewrite H; auto.
  - exists als. split; [|exact H3]. eapply Forall2_named_ext; eauto.
  - rewrite Forall_forall in *. intros l Hl. rewrite H; auto.
Qed.

Lemma NoDup_snoc_keys (d : dsources) a t : NoDup (dkeys d) -> ~ In a (dkeys d) -> NoDup (dkeys (d ++ [(a, t)])).
Proof. intros H1 H2. unfold dkeys. rewrite map_app. apply NoDup_snoc; assumption. Qed.

Definition merge_result (h : heap) (d : dsources) (q : sql) (h' : heap) (d' : dsources) (a : string) : Prop :=
  keeps_tables d d' /\ keeps_columns h d h' /\ good_tables h' d' /\
  (exists t, dlookup d' a = Some t /\ provides h' t q) /\
  (forall k t, In (k, t) d -> k <> a -> In (k, t) d').

Lemma rel_others_merged h h' d d' a t' q :
  good_tables h d -> Forall2 rel_kt d d' -> fresh_cols d q ->
  (forall l, ~ In l (q_cols q) -> h' l = h l) ->
  In (a, TSql t') d' -> provides h' (TSql t') q -> distinct_columns h' (q_cols t') ->
  (forall k u, In (k, u) d' -> k <> a -> In (k, u) d) ->
  merge_result h d q h' d' a.
Proof.
  intros [Hnd Hg] HF Hfr Ho Hin Hp Hdc Hk.
  assert (Hkeys : dkeys d' = dkeys d) by (apply rel_kt_keys; exact HF).
  assert (Hkc : keeps_columns h d h').
  { intros k t l Hkt Hl. rewrite Ho; [auto|]. eapply Hfr; eauto. }
  split. { exists d', []. rewrite app_nil_r. split; [reflexivity|exact HF]. }
  split; [exact Hkc|].
  split. { split; [rewrite Hkeys; exact Hnd|]. intros k u Hu.
           destruct (string_dec k a) as [->|Hne].
           - assert (TSql u = TSql t') as E; [|injection E as ->; exact Hdc].
             eapply NoDup_keys_unique; [|exact Hu|exact Hin]. rewrite Hkeys; exact Hnd.
           - pose proof (Hk _ _ Hu Hne) as Hu'. eapply distinct_ext; [|eapply Hg; exact Hu'].
             intros l Hl. apply Ho. eapply Hfr; [exact Hu'|exact Hl]. }
  split. { exists (TSql t'). split; [|exact Hp]. apply In_dlookup; [rewrite Hkeys; exact Hnd|exact Hin]. }
  intros k t Hkt Hne. destruct (Forall2_rel_In _ _ _ _ HF Hkt) as (t'' & Hin'' & _).
  pose proof (Hk _ _ Hin'' Hne) as H2. rewrite (NoDup_keys_unique d k t t'' Hnd Hkt H2). exact Hin''.
Qed.

Lemma ds_merge_ok fuel h d alias q :
  good_tables h d -> Forall (fun l => wf_column (h l)) (q_cols q) ->
  distinct_columns h (q_cols q) -> fresh_cols d q ->
  total_cols d + List.length (q_cols q) + List.length d + 2 <= fuel ->
  exists h' d' a, ds_merge fuel h d alias q = Ok (h', d', a) /\ merge_result h d q h' d' a.
Proof.
  intros Hgood Hwf Hdq Hfr Hf. pose proof Hgood as [Hnd Hg].
  assert (Hcont : exists h' d' a,
    bind (merge_scan fuel h [] d alias q) (fun x =>
    match x with
    | (h', d', Some a) => Ok (h', d', a)
    | (h', d', None) =>
        match fresh_alias fuel (dkeys d') alias with
        | Some a => Ok (h', dset d' a (TSql q), a)
        | None => Err RecursionError
        end
    end) = Ok (h', d', a) /\ merge_result h d q h' d' a).
  { destruct (merge_scan_ok fuel q alias d h []) as (h' & d' & r & E & HF & Ho & He & Hr); auto; [lia|].
    rewrite E. cbn [bind app]. destruct r as [a|].
    - destruct Hr as (t' & Hin & Hp & Hdc & Hk). exists h', d', a. split; [reflexivity|].
      eapply rel_others_merged; eauto.
    - destruct Hr as [-> ->].
      destruct (fresh_alias_ok fuel (dkeys d) alias) as (b & Eb & Hb & _).
      { unfold dkeys. rewrite map_length. lia. }
      rewrite Eb. exists h, (dset d b (TSql q)), b. split; [reflexivity|].
      rewrite (dset_new _ _ _ Hb). split.
      { exists d, [(b, TSql q)]. split; [reflexivity|apply rel_kt_refl]. }
      split. { intros k t l _ _. auto. }
      split. { split; [apply NoDup_snoc_keys; assumption|]. intros k u Hu.
               apply in_app_iff in Hu as [Hu|[Hu|[]]]; [eapply Hg; exact Hu|]. injection Hu as _ <-. exact Hdq. }
      split. { exists (TSql q). split; [|apply provides_self; exact Hwf].
               apply In_dlookup; [apply NoDup_snoc_keys; assumption|]. apply in_app_iff. right; left; reflexivity. }
      intros k t Hkt _. apply in_app_iff. left. exact Hkt. }
  unfold ds_merge. destruct (dlookup d alias) as [[t|s]|] eqn:El; try exact Hcont.
  pose proof (dlookup_In _ _ _ El) as Hin.
  destruct (sql_merge_ok fuel h t q) as (h' & t' & b & E & Hfalse & Htrue & Hgr & Ho & He & Ha).
  - eapply Hg. exact Hin.
  - exact Hwf.
  - pose proof (total_cols_In _ _ _ Hin). simpl in *. lia.
  - rewrite E. cbn [bind].
    destruct (dset_split _ _ _ El) as (d1 & d2 & Ed & Hn1 & Hset).
    destruct b.
    + destruct (Htrue eq_refl) as [Hp Hdc]. exists h', (dset d alias (TSql t')), alias. split; [reflexivity|].
      rewrite Hset. apply (rel_others_merged h h' d _ alias t' q); auto.
      * rewrite Ed. apply Forall2_app; [apply rel_kt_refl|]. constructor; [|apply rel_kt_refl].
        split; [reflexivity|exact Hgr].
      * apply in_app_iff. right. left. reflexivity.
      * intros k u Hu Hne. rewrite Ed. apply in_app_iff in Hu as [Hu|[Hu|Hu]].
        -- apply in_app_iff; left; exact Hu.
        -- injection Hu as <- _. congruence.
        -- apply in_app_iff; right; right; exact Hu.
    + destruct (Hfalse eq_refl) as [-> ->].
      assert (dset d alias (TSql t) = d) as -> by (rewrite Hset; symmetry; exact Ed).
      exact Hcont.
Qed.

(** *** Datasources.add *)
Definition renderable (h : heap) (t : table) : Prop := exists s, table_str h t = Ok s.

Lemma find_text_spec h d s :
  (forall k t, In (k, t) d -> renderable h t) ->
  exists r, find_text h d s = Ok r /\
    match r with
    | Some k => exists t, In (k, t) d /\ table_str h t = Ok s
    | None => forall k t, In (k, t) d -> table_str h t <> Ok s
    end.
Proof.
  induction d as [|[k t] d IH]; intros Hr; simpl.
  - exists None. split; [reflexivity|]. intros k t [].
  - destruct (Hr k t) as [s' Es]; [left; reflexivity|]. rewrite Es. cbn [bind].
    destruct (String.eqb_spec s' s) as [->|Hne].
    + exists (Some k). split; [reflexivity|]. exists t. auto.
    + destruct IH as (r & E & Hrr). { intros k' t' H. apply (Hr k' t'). right. exact H. }
      exists r. split; [exact E|]. destruct r as [k'|].
      * destruct Hrr as (t' & Hin & Et). exists t'. auto.
      * intros k' t' [E0|H]; [injection E0 as <- <-; congruence|apply (Hrr k'); exact H].
Qed.

Lemma ds_add_loop h d t s : table_str h t = Ok s ->
  NoDup (dkeys d) -> (forall k t, In (k, t) d -> renderable h t) ->
  forall fuel alias,
  (exists d' a, ds_add fuel h d alias t = Ok (d', a) /\
     ((d' = d /\ exists u, dlookup d a = Some u /\ table_str h u = Ok s) \/
      (d' = d ++ [(a, t)] /\ ~ In a (dkeys d) /\ (~ In alias (dkeys d) -> a = alias) /\
       forall k u, In (k, u) d -> table_str h u <> Ok s))) \/
  (ds_add fuel h d alias t = Err RecursionError /\
   forall i, i < fuel -> In (Nat.iter i add_suffix alias) (dkeys d)).
Proof.
  intros Hs Hnd Hr. induction fuel as [|fuel IH]; intros alias.
  { right. split; [reflexivity|]. intros i Hi; lia. }
  cbn [ds_add]. rewrite Hs. cbn [bind]. destruct (dlookup d alias) as [u|] eqn:El.
  - pose proof (dlookup_In _ _ _ El) as Hin. destruct (Hr _ _ Hin) as [s' Es]. rewrite Es. cbn [bind].
    destruct (String.eqb_spec s s') as [<-|Hne].
    + left. exists d, alias. split; [reflexivity|]. left. split; [reflexivity|]. exists u. auto.
    + assert (Hk : In alias (dkeys d)) by (apply in_map_iff; exists (alias, u); auto).
      destruct (IH (add_suffix alias)) as [(d' & a & E & Hc)|[E Hall]].
      * left. exists d', a. split; [exact E|]. destruct Hc as [Hc|(H1 & H2 & _ & H4)]; [left; exact Hc|].
        right. split; [exact H1|]. split; [exact H2|]. split; [contradiction|exact H4].
      * right. split; [exact E|]. intros [|i] Hi; [exact Hk|]. rewrite <- iter_shift. apply Hall. lia.
  - apply dlookup_None in El. destruct (find_text_spec h d s Hr) as (r & E & Hrr). rewrite E. cbn [bind].
    left. destruct r as [k|].
    + destruct Hrr as (u & Hin & Eu). exists d, k. split; [reflexivity|]. left. split; [reflexivity|].
      exists u. split; [apply In_dlookup; assumption|exact Eu].
    + exists (dset d alias t), alias. split; [reflexivity|]. right. rewrite dset_new by exact El.
      split; [reflexivity|]. split; [exact El|]. split; [reflexivity|]. exact Hrr.
Qed.

Lemma ds_add_ok h d t alias fuel : renderable h t ->
  NoDup (dkeys d) -> (forall k t, In (k, t) d -> renderable h t) ->
  List.length d + 2 <= fuel ->
  exists d' a u s, ds_add fuel h d alias t = Ok (d', a) /\
    table_str h t = Ok s /\ dlookup d' a = Some u /\ table_str h u = Ok s /\
    NoDup (dkeys d') /\
    ((d' = d) \/
     (d' = d ++ [(a, t)] /\ ~ In a (dkeys d) /\ (~ In alias (dkeys d) -> a = alias) /\
      forall k u, In (k, u) d -> table_str h u <> Ok s)).
Proof.
  intros [s Hs] Hnd Hr Hf.
  destruct (ds_add_loop h d t s Hs Hnd Hr fuel alias) as [(d' & a & E & Hc)|[E Hall]].
  - destruct Hc as [(-> & u & Hu & Eu)|(-> & Hn & Ha & Hnone)].
    + exists d, a, u, s. auto 10.
    + exists (d ++ [(a, t)]), a, t, s. split; [exact E|]. split; [exact Hs|].
      assert (NoDup (dkeys (d ++ [(a, t)]))) by (apply NoDup_snoc_keys; assumption).
      split. { apply In_dlookup; [assumption|]. apply in_app_iff. right; left; reflexivity. }
      split; [exact Hs|]. split; [assumption|]. right. auto.
  - exfalso. assert (fuel - 1 <= List.length (dkeys d)).
    { apply (iter_escapes _ alias). intros i Hi. apply Hall. lia. }
    unfold dkeys in *. rewrite map_length in *. lia.
Qed.

(** *** C11: the alias of a re-added column *)
Lemma columns_add_alias_right fuel h L l h' L' :
  distinct_columns h L -> wf_column (h l) -> List.length L + 2 <= fuel ->
  (forall l0, In l0 L -> c_expr (h l0) = c_expr (h l) -> c_suffix (h l0) = c_suffix (h l)) ->
  columns_add fuel h L l = Ok (h', L') ->
  exists a, named h' l a /\ selects h' L' (c_expr (h l)) a.
Proof.
  intros Hd Hwf Hf Hsuf E.
  destruct (columns_add_ok fuel h L l Hd Hwf Hf) as (h2 & L2 & E2 & Hd' & Ho & He & Hw & Hin & Hnin & Hal).
  rewrite E in E2. injection E2 as <- <-.
  destruct (in_dec string_dec (c_expr (h l)) (map (fun l => c_expr (h l)) L)) as [Hi|Hi].
  - pose proof (Hin Hi) as ->.
    destruct (Nat.eq_dec fuel 0) as [->|Hf0]; [lia|]. destruct fuel as [|fuel]; [lia|].
    cbn [columns_add] in E.
    pose proof Hwf as (Hexp & Hraw). apply String.eqb_neq in Hexp. rewrite Hexp in E.
    destruct (wf_alias _ Hwf) as [a0 Ha0]. rewrite Ha0 in E. cbn [bind] in E.
    unfold get_alias in E.
    destruct (find (fun l0 => String.eqb (c_expr (h l0)) (c_expr (h l))) L) as [l0|] eqn:Ef.
    2:{ apply find_expr_none in Ef. contradiction. }
    apply find_some in Ef as [Hl0 El0]. apply String.eqb_eq in El0.
    destruct Hd as (_ & _ & Hwfs). rewrite Forall_forall in Hwfs.
    pose proof (Hwfs _ Hl0) as Hwf0. destruct Hwf0 as (Hx & r & Hr & Hrne & Hrs & Hre).
    rewrite Hr, (truthy_intro _ Hrne) in E. injection E as <-.
    destruct (wf_alias (h l0)) as [a Ha]. { split; [exact Hx|]. exists r; auto. }
    exists a. split.
    + unfold named. rewrite upd_same. unfold col_alias, set_alias in *.
      cbn [c_suffix c_alias_raw]. rewrite Hrs. rewrite <- (Hsuf _ Hl0 El0). rewrite Hr in Ha. exact Ha.
    + exists l0. split; [exact Hl0|]. unfold named. rewrite Hal by exact Hl0. split; [|exact Ha].
      destruct (Nat.eq_dec l0 l) as [->|Hne]; [rewrite upd_same; reflexivity|rewrite upd_other by exact Hne; exact El0].
  - pose proof (Hnin Hi) as ->. destruct (wf_alias _ Hw) as [a Ha]. exists a. split; [exact Ha|].
    exists l. split; [apply in_app_iff; right; left; reflexivity|]. split; [exact He|exact Ha].
Qed.
