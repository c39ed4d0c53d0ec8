(** Lemmas for C73. *)
From Coq Require Import Reals List Bool String Arith ZArith Lia.
From Verif Require Import M_Num M_Frame M_Leaf M_Precomp S_Precomp.
Import ListNotations.
Open Scope list_scope.

Lemma tree_ind' (P : tree -> Prop) : (forall k, P (TLeaf k)) -> (forall r, P (TConst r)) -> (forall n cs, (forall c, In c cs -> P c) -> P (TNode n cs)) -> forall t, P t.
Proof.
  intros H1 H2 H3. fix IH 1. intros [k|r|n cs]; [apply H1|apply H2|]. apply H3. revert cs. fix IHc 1. intros [|c cs] c' H; [destruct H|]. destruct H as [<-|H]; [apply IH|exact (IHc cs c' H)].
Qed.
Lemma map_fix {A} (f : A -> A) l : List.map f l = l -> forall x, In x l -> f x = x.
Proof. induction l as [|a l IH]; intros E x H; [destruct H|]. cbn in E. injection E as E1 E2. destruct H as [<-|H]; auto. Qed.

Section Run.
  Variable user : nat -> option tree.
  Notation pre := (precomputable user).
  Notation ex := (expand_tree user).
  (** One level of the traversal *)
  Lemma pre_leaf f jk k : pre (S f) jk (TLeaf k) =
    match k with
    | KDistinct _ => false
    | KSimple (LSum _) | KSimple (LCount _) => true
    | KMax _ | KMin _ => negb jk
    | _ => match get_equivalent user k with None => false | Some (TNode _ cs) => forallb (pre f false) cs | Some _ => true end
    end.
  Proof. destruct k as [l| | | | |]; [destruct l|..]; reflexivity. Qed.
  Lemma pre_node f jk n cs : pre (S f) jk (TNode n cs) = match n with NOperation false => false | _ => true end && match cs with [] => false | _ => forallb (pre (S f) jk) cs end.
  Proof. reflexivity. Qed.
  Lemma pre_const f jk r : pre (S f) jk (TConst r) = true. Proof. reflexivity. Qed.
  Lemma node_true f jk n cs : pre (S f) jk (TNode n cs) = true <-> n <> NOperation false /\ cs <> [] /\ forall c, In c cs -> pre (S f) jk c = true.
  Proof.
    rewrite pre_node, andb_true_iff. split.
    - intros [H1 H2]. split; [destruct n as [|[]]; congruence|]. destruct cs as [|c cs]; [discriminate|]. split; [discriminate|]. now apply forallb_forall.
    - intros (H1 & H2 & H3). split; [destruct n as [|[]]; congruence|]. destruct cs as [|c cs]; [congruence|]. now apply forallb_forall.
  Qed.
  Lemma pre_more f : forall f' jk jk' t, (f <= f')%nat -> (jk' = true -> jk = true) -> pre f jk t = true -> pre f' jk' t = true.
  Proof.
    induction f as [|f IH]; intros f' jk jk' t Hf Hj; [discriminate|]. destruct f' as [|f']; [lia|].
    induction t as [k|r|n cs IHc] using tree_ind'; [|reflexivity|].
    - rewrite !pre_leaf. assert (negb jk = true -> negb jk' = true) as Hn by (destruct jk, jk'; intuition). 
      destruct k as [l| | | | |m]; auto; [destruct l; auto|]; destruct (get_equivalent user _) as [[|?|? cs]|]; auto; rewrite !forallb_forall; intros H c' Hc'; apply (IH f' false false c'); auto; lia.
    - rewrite !node_true. intros (H1 & H2 & H3). repeat split; auto.
  Qed.
  Lemma children_fuel jk cs : (forall c, In c cs -> exists f, pre f jk c = true) -> exists f, forall c, In c cs -> pre (S f) jk c = true.
  Proof.
    induction cs as [|c cs IH]; intros H; [exists O; intros c []|]. destruct IH as [f Hf]; [intros c' Hc'; apply H; now right|]. destruct (H c (or_introl eq_refl)) as [g Hg].
    exists (f + g)%nat. intros c' [<-|Hc']; [apply (pre_more g _ jk); [lia|auto|exact Hg]|apply (pre_more (S f) _ jk); [lia|auto|now apply Hf]].
  Qed.
  (** Accepted after an expansion: accepted before *)
  Lemma pre_expand jk t : (exists f, pre f jk (ex t) = true) -> exists f, pre f jk t = true.
  Proof.
    induction t as [k|r|n cs IHc] using tree_ind'; cbn [expand_tree]; intros [f Hf]; [| |].
    - destruct (get_equivalent user k) as [e|] eqn:E; [|eauto]. exists (S (S f)). rewrite pre_leaf.
      assert (match get_equivalent user k with None => false | Some (TNode _ cs) => forallb (pre (S f) false) cs | Some _ => true end = true) as H.
      { rewrite E. destruct e as [k'|r|n cs]; auto. destruct f as [|f]; [discriminate|]. apply node_true in Hf as (_ & _ & H). apply forallb_forall. intros c Hc. apply (pre_more (S f) _ jk); [lia|discriminate|now apply H]. }
      destruct k as [l| | | | |m]; try discriminate; [destruct l; auto|]; exact H.
    - exists 1%nat. reflexivity.
    - destruct f as [|f]; [discriminate|]. apply node_true in Hf as (H1 & H2 & H3).
      destruct (children_fuel jk cs) as [g Hg]. { intros c Hc. apply (IHc c Hc). exists (S f). apply H3. now apply in_map. }
      exists (S g). apply node_true. repeat split; auto. intros ->. now apply H2.
  Qed.
  Lemma pre_expands jk n t : (exists f, pre f jk (Nat.iter n ex t) = true) -> exists f, pre f jk t = true.
  Proof. revert t. induction n as [|n IH]; intros t H; [exact H|]. apply IH. apply pre_expand. exact H. Qed.
  Lemma sums_pre jk t : only_sums jk t -> pre 1 jk t = true.
  Proof.
    induction t as [k|r|n cs IHc] using tree_ind'; intros [H1 H2]; [|reflexivity|].
    - rewrite pre_leaf. destruct (H1 k (or_introl eq_refl)) as [[c ->]|[[c ->]|[-> [v [->| ->]]]]]; reflexivity.
    - apply node_true. destruct (H2 n cs (or_introl eq_refl)) as [H3 H4]. repeat split; auto. intros c Hc. apply (IHc c Hc). split.
      + intros k Hk. apply H1. cbn. apply in_flat_map. eauto.
      + intros n' cs' Hn. apply H2. right. apply in_flat_map. eauto.
  Qed.
  Lemma no_self l : option_map of_etree (equivalent l) <> Some (TLeaf (KSimple l)).
  Proof.
    destruct l as [| |a b []|c [w|]|c d [w|]|c d w|c d|a b d w f|a b w|]; cbn; try discriminate. unfold cov_equivalent. destruct w, f; cbn; destruct (Z.eqb d 0); discriminate.
  Qed.
  Hypothesis Hself : forall n, user n <> Some (TLeaf (KUser n)).
  Lemma pre_sums jk f t : ex t = t -> pre f jk t = true -> only_sums jk t.
  Proof.
    destruct f as [|f]; [discriminate|]. induction t as [k|r|n cs IHc] using tree_ind'; intros E H.
    - split; [|intros ? ? []]. intros k' [<-|[]]. rewrite pre_leaf in H. cbn [expand_tree] in E.
      destruct k as [l|v|v|v|m|m]; cbn [get_equivalent] in *; try discriminate.
      + pose proof (no_self l) as Hl. destruct (equivalent l) as [e|] eqn:El; cbn [option_map] in *; [rewrite E in Hl; congruence|].
        destruct l; try discriminate; [left|right; left]; eauto.
      + right. right. destruct jk; [discriminate|]. eauto.
      + right. right. destruct jk; [discriminate|]. eauto.
      + specialize (Hself m). destruct (user m) as [e|]; congruence.
    - split; [intros ? []|intros ? ? []].
    - cbn [expand_tree] in E. injection E as E. apply node_true in H as (H1 & H2 & H3). split.
      + intros k Hk. apply in_flat_map in Hk as (c & Hc & Hk). now apply (IHc c Hc (map_fix _ _ E c Hc) (H3 c Hc)).
      + intros n' cs' [Hn|Hn]; [injection Hn as <- <-; auto|]. apply in_flat_map in Hn as (c & Hc & Hn). now apply (IHc c Hc (map_fix _ _ E c Hc) (H3 c Hc)).
  Qed.
  Lemma iter_fix n e : ex e = e -> Nat.iter n ex e = e.
  Proof. intros E. induction n as [|n IH]; [reflexivity|]. cbn. unfold Nat.iter in *. now rewrite IH. Qed.
  Lemma expanded_unique t e e' : fully_expanded user t e -> fully_expanded user t e' -> e = e'.
  Proof.
    assert (forall n m e e', (n <= m)%nat -> e = Nat.iter n ex t -> ex e = e -> e' = Nat.iter m ex t -> ex e' = e' -> e = e') as H.
    { intros n m a b Hnm E1 F1 E2 _. replace m with ((m - n) + n)%nat in E2 by lia. rewrite E2. assert (forall i, Nat.iter (i + n) ex t = Nat.iter i ex (Nat.iter n ex t)) as Hi by (induction i as [|i IH]; [reflexivity|cbn; now f_equal]). rewrite Hi, <- E1. symmetry. now apply iter_fix. }
    intros (n & E1 & F1) (m & E2 & F2). destruct (Nat.le_ge_cases n m); [now apply (H n m)|symmetry; now apply (H m n)].
  Qed.
  Theorem fast_iff jk en un t e : fully_expanded user t e -> (fast_path user jk en un t <-> (jk || un) && en = true /\ only_sums jk e).
  Proof.
    intros He. assert (fully_expanded user e e) as Hee by (destruct He as (n & _ & E); exists O; split; [reflexivity|exact E]).
    assert (forall x, fully_expanded user x e -> fast_path user jk en un x -> (jk || un) && en = true /\ only_sums jk e) as H.
    { intros x Hx HF. induction HF as [x [H1 [f H2]] Hxx|x e' [H1 [f H2]] Hx' Hd HF IH].
      - assert (e = x) as -> by (now apply (expanded_unique x)). split; [exact H1|]. apply (pre_sums jk f); [now destruct Hxx as (? & _ & ?)|exact H2].
      - assert (e = e') as <- by (now apply (expanded_unique x)). now apply IH. }
    split; [now apply H|]. intros [H1 H2].
    assert (can_precompute user jk en un e) as Ce by (split; [exact H1|]; exists 1%nat; now apply sums_pre).
    assert (can_precompute user jk en un t) as Ct. { split; [exact H1|]. destruct He as (n & E & _). apply (pre_expands jk n). rewrite <- E. exists 1%nat. now apply sums_pre. }
    assert (t = e \/ t <> e) as [->|Hd] by (apply Classical_Prop.classic); [now apply fast_now|].
    apply (fast_expanded user jk en un t e); auto. now apply fast_now.
  Qed.
End Run.

(** ** Built-in metrics: the expansion *)
From Verif Require Import S_Leaf L_Leaf L_Leaf3.
Section BuiltIn.
  Variable user : nat -> option tree.
  Notation ex := (expand_tree user).
  Lemma expand_of e : ex (of_etree e) = of_etree (expand e).
  Proof. induction e as [l|r|a IHa b IHb|a IHa b IHb|a IHa b IHb|a IHa b IHb|a IHa|a IHa]; cbn [of_etree expand expand_tree List.map get_equivalent]; try congruence. destruct (equivalent l); reflexivity. Qed.
  Lemma iter_of n e : Nat.iter n ex (of_etree e) = of_etree (Nat.iter n expand e).
  Proof. induction n as [|n IH]; [reflexivity|]. cbn. unfold Nat.iter in *. now rewrite IH, expand_of. Qed.
  Lemma iter_node n k cs : Nat.iter n ex (TNode k cs) = TNode k (List.map (Nat.iter n ex) cs).
  Proof.
    induction n as [|n IH]; [cbn; now rewrite map_id|]. change (Nat.iter (S n) ex (TNode k cs)) with (ex (Nat.iter n ex (TNode k cs))). rewrite IH. cbn [expand_tree]. now rewrite map_map.
  Qed.
  Lemma of_ends e : ends (of_etree e) = List.map KSimple (leaves e).
  Proof. induction e; cbn [of_etree ends leaves flat_map List.map]; rewrite ?app_nil_r, ?map_app; congruence. Qed.
  Lemma of_nodes e n cs : In (n, cs) (nodes (of_etree e)) -> n = NPlain /\ cs <> [].
  Proof.
    induction e as [l|r|a IHa b IHb|a IHa b IHb|a IHa b IHb|a IHa b IHb|a IHa|a IHa]; cbn [of_etree nodes flat_map]; try (intros []; fail); (intros [E|H]; [injection E as <- <-; split; [reflexivity|discriminate]|]);
      repeat (apply in_app_iff in H as [H|H]); first [now apply IHa|now apply IHb|destruct H].
  Qed.
  Notation full_tree t := (Nat.iter 6 ex t).
  Lemma leaf_full k : (forall n, k <> KUser n) -> full_tree (TLeaf k) = match k with KSimple l => of_etree (full (ELeaf l)) | _ => TLeaf k end.
  Proof. intros H. destruct k as [l| | | | |n]; try reflexivity; [exact (iter_of 6 (ELeaf l))|now destruct (H n)]. Qed.
  Lemma built_in_ends t : built_in t -> ex (full_tree t) = full_tree t.
  Proof.
    induction t as [k|r|n cs IHc] using tree_ind'; intros H; [|reflexivity|].
    - rewrite leaf_full by (intros n ->; apply (H n); now left). destruct k as [l| | | | |n]; try reflexivity; [rewrite expand_of; now rewrite full_fix|]. destruct (H n). now left.
    - rewrite iter_node. cbn [expand_tree]. f_equal. rewrite map_map. apply map_ext_in. intros c Hc. apply (IHc c Hc). intros m Hm. apply (H m). apply in_flat_map. eauto.
  Qed.
  Lemma built_in_sums jk t : built_in t ->
    (only_sums jk (full_tree t) <-> (forall k, In k (ends t) -> expandable jk k) /\ (forall n cs, In (n, cs) (nodes t) -> n <> NOperation false /\ cs <> [])).
  Proof.
    induction t as [k|r|n cs IHc] using tree_ind'; intros H.
    - rewrite leaf_full by (intros n ->; apply (H n); now left). split.
      + intros [H1 _]. split; [|intros ? ? []]. intros k' [<-|[]]. destruct k as [l|v|v|v|n|n]; cbn [expandable].
        * destruct l; try exact I. destruct (H1 (KSimple (LOther agg)) (or_introl eq_refl)) as [[c E]|[[c E]|[_ [v [E|E]]]]]; discriminate.
        * destruct (H1 (KDistinct v) (or_introl eq_refl)) as [[c E]|[[c E]|[_ [v' [E|E]]]]]; discriminate.
        * destruct (H1 (KMax v) (or_introl eq_refl)) as [[c E]|[[c E]|[E _]]]; [discriminate..|exact E].
        * destruct (H1 (KMin v) (or_introl eq_refl)) as [[c E]|[[c E]|[E _]]]; [discriminate..|exact E].
        * destruct (H1 (KOther n) (or_introl eq_refl)) as [[c E]|[[c E]|[_ [v' [E|E]]]]]; discriminate.
        * destruct (H n). now left.
      + intros [H1 _]. specialize (H1 k (or_introl eq_refl)). destruct k as [l|v|v|v|n|n]; cbn [expandable] in H1; try contradiction.
        * split; [|intros n cs Hn; apply of_nodes in Hn as [-> Hn]; split; [discriminate|exact Hn]]. rewrite of_ends. intros k Hk. apply in_map_iff in Hk as (l' & <- & Hl).
          apply only_sum_count in Hl as [[c ->]|[[c ->]|(agg & -> & [Hl|[]])]]; [left; eauto|right; left; eauto|]. rewrite Hl in H1. destruct H1.
        * split; [|intros ? ? []]. intros k [<-|[]]. right. right. eauto.
        * split; [|intros ? ? []]. intros k [<-|[]]. right. right. eauto.
    - cbn. split; intros _; split; intros; contradiction.
    - rewrite iter_node.
      assert (forall c, In c cs -> built_in c) as Hb by (intros c Hc m Hm; apply (H m); apply in_flat_map; eauto). unfold only_sums. cbn [ends nodes]. split.
      + intros [H1 H2]. assert (forall c, In c cs -> only_sums jk (full_tree c)) as Hs.
        { intros c Hc. split; [intros k Hk; apply H1; apply in_flat_map; exists (full_tree c); split; [now apply in_map|exact Hk]|intros n' cs' Hn; apply H2; right; apply in_flat_map; exists (full_tree c); split; [now apply in_map|exact Hn]]. }
        split.
        * intros k Hk. apply in_flat_map in Hk as (c & Hc & Hk). now apply (proj1 (IHc c Hc (Hb c Hc)) (Hs c Hc)).
        * intros n' cs' [E|Hn].
          { injection E as <- <-. destruct (H2 n (List.map (Nat.iter 6 ex) cs) (or_introl eq_refl)) as [H3 H4]. split; [exact H3|]. intros ->. now apply H4. }
          apply in_flat_map in Hn as (c & Hc & Hn). now apply (proj1 (IHc c Hc (Hb c Hc)) (Hs c Hc)).
      + intros [H1 H2]. assert (forall c, In c cs -> only_sums jk (full_tree c)) as Hs.
        { intros c Hc. apply (proj2 (IHc c Hc (Hb c Hc))). split; [intros k Hk; apply H1; apply in_flat_map; eauto|intros n' cs' Hn; apply H2; right; apply in_flat_map; eauto]. }
        split.
        * intros k Hk. apply in_flat_map in Hk as (c & Hc & Hk). apply in_map_iff in Hc as (c' & <- & Hc). now apply (Hs c' Hc).
        * intros n' cs' [E|Hn].
          { injection E as <- <-. destruct (H2 n cs (or_introl eq_refl)) as [H3 H4]. split; [exact H3|]. intros E. apply map_eq_nil in E. contradiction. }
          apply in_flat_map in Hn as (c & Hc & Hn). apply in_map_iff in Hc as (c' & <- & Hc). now apply (Hs c' Hc).
  Qed.
End BuiltIn.
