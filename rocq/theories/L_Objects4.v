(** The rewrites of a metric tree write only to new objects. *)
From Coq Require Import List String Bool Arith Lia.
Import ListNotations.
From Verif Require Import M_Objects S_Objects L_Objects1 L_Objects2.

(** A rewrite of one child. *)
Definition rewrites (R : tree -> tree -> Prop) (f : heap -> child -> option (heap * child)) (t : tree) : Prop :=
  forall h c, denotes h c t -> exists h' c' t', f h c = Some (h', c') /\ kept h h' /\
    denotes h' c' t' /\ R t t' /\ all_new h h' c'.

Lemma new_kept : forall h h1 h2 c t, kept h1 h2 -> denotes h1 c t -> all_new h h1 c -> all_new h h2 c.
Proof.
  intros h h1 h2 c t K D N b M. apply N. eapply kept_made_of; eauto.
Qed.
Lemma new_weaken : forall h0 h h' c, kept h0 h -> all_new h h' c -> all_new h0 h' c.
Proof.
  intros h0 h h' c K N. apply new_iff. intros b M. pose proof (proj1 (new_iff _ _ _) N b M).
  pose proof (kept_length _ _ K). lia.
Qed.

Lemma thread_rewrites : forall R f ts ks h, Forall (rewrites R f) ts -> Forall2 (denotes h) ks ts ->
  exists h' ks' ts', thread f h ks = Some (h', ks') /\ kept h h' /\ Forall2 (denotes h') ks' ts' /\
    Forall2 R ts ts' /\ Forall (all_new h h') ks'.
Proof.
  intros R f ts ks h I F. revert h F. revert ks. induction I as [|t ts It I IH]; intros ks h F.
  - inversion F; subst. exists h, [], []. cbn [thread]. repeat split; try constructor. apply kept_refl.
  - inversion F as [|k ? ks0 ? Dk F']; subst.
    destruct (It h k Dk) as (h1 & k' & t' & E1 & K1 & D1 & R1 & N1).
    destruct (IH ks0 h1) as (h2 & ks' & ts' & E2 & K2 & D2 & R2 & N2).
    { eapply F2_impl; [|exact F']. intros x y. apply kept_denotes. exact K1. }
    exists h2, (k' :: ks'), (t' :: ts'). cbn [thread]. rewrite E1, E2.
    split; [reflexivity|]. split; [eapply kept_trans; eauto|].
    split; [constructor; [eapply kept_denotes; eauto|exact D2]|]. split; [constructor; auto|].
    constructor; [eapply new_kept; eauto|]. eapply Forall_impl; [|exact N2].
    intros x. apply new_weaken. exact K1.
Qed.

(** An object above the heap with new children is a new metric. *)
Lemma new_node : forall h0 h a l ks ts, List.length h0 <= a -> nth_error h a = Some {| lab := l; kids := ks |} ->
  Forall2 (denotes h) ks ts -> Forall (all_new h0 h) ks -> denotes h (Ref a) (Node l ts) /\ all_new h0 h (Ref a).
Proof.
  intros h0 h a l ks ts La E F N. split; [apply (denotes_node h a _ ts E F)|].
  apply new_iff. intros b M. inversion M as [|x o k y E' Kin M']; subst; [exact La|].
  rewrite E in E'. injection E' as <-. cbn [kids] in Kin. rewrite Forall_forall in N.
  exact (proj1 (new_iff _ _ _) (N k Kin) b M').
Qed.

Lemma finish_node : forall h h3 h4 a' l ks ts, List.length h <= a' ->
  (forall b, b <> a' -> nth_error h4 b = nth_error h3 b) ->
  nth_error h4 a' = Some {| lab := l; kids := ks |} -> Forall2 (denotes h3) ks ts ->
  Forall (fun k => forall b, made_of h3 k b -> a' < b) ks ->
  denotes h4 (Ref a') (Node l ts) /\ all_new h h4 (Ref a').
Proof.
  intros h h3 h4 a' l ks ts La G E F N.
  assert (D4 : Forall2 (denotes h4) ks ts /\ Forall (all_new h h4) ks).
  { clear E. revert ts F. induction N as [|k ks Nk N I]; intros us3 D3;
      inversion D3 as [|? u ? us Hk Hks]; subst; [split; constructor|].
    destruct (I us Hks) as [I1 I2].
    assert (Ag : forall b, made_of h3 k b -> nth_error h4 b = nth_error h3 b)
      by (intros b M; apply G; specialize (Nk b M); lia).
    split; constructor; auto; [eapply denotes_agree; eauto|].
    apply new_iff. intros b M. pose proof (made_of_agree _ _ _ _ M _ Hk Ag) as M'.
    specialize (Nk b M'). lia. }
  exact (new_node h h4 a' l ks ts La E (proj1 D4) (proj2 D4)).
Qed.

Lemma pushed_ext : forall t t' a b, (forall f, In f a <-> In f b) -> pushed a t t' -> pushed b t t'.
Proof.
  intros t. induction t as [s|l ts IH] using tree_ind2; intros t' a b E P;
    inversion P as [|l0 w Hw X|l0 us vs Hne F X]; subst.
  - constructor.
  - constructor. intros f. rewrite Hw, !in_app_iff, E. tauto.
  - constructor; [exact Hne|]. clear Hne P. induction F as [|u v us vs Q F I]; constructor.
    + inversion IH as [|? ? IHu IHus]; subst. eapply IHu; [|exact Q]. intros f. rewrite !in_app_iff, E. tauto.
    + inversion IH; subst. auto.
Qed.

(** A metric with more filters at its root. *)
Definition filtered (w : list string) (t : tree) : tree :=
  match t with TConst s => TConst s | Node l ts => Node (add_where w l) ts end.

Lemma added_In : forall old new f, In f (added_where old new) <-> In f (new ++ old).
Proof.
  intros old new f. unfold added_where. destruct old as [|x old]; [now rewrite app_nil_r|].
  rewrite nodup_In, !in_app_iff. tauto.
Qed.

Lemma pushed_filtered : forall w t t', pushed [] (filtered w t) t' -> pushed w t t'.
Proof.
  intros w t t' P. destruct t as [s|l ts]; cbn [filtered] in P;
    inversion P as [|l0 w0 Hw X|l0 us vs Hne F X]; subst.
  - constructor.
  - change (with_where w0 (add_where w l)) with (with_where w0 l). constructor.
    intros f. rewrite Hw. exact (added_In _ _ _).
  - change (with_where [] (add_where w l)) with (with_where [] l). constructor; [exact Hne|].
    eapply F2_impl; [|exact F]. intros u v. apply pushed_ext. intros f. exact (added_In _ _ _).
Qed.

Lemma copy_filtered_ok : forall w t h c, denotes h c t -> exists h' c', copy_filtered w h c = Some (h', c') /\
  kept h h' /\ denotes h' c' (filtered w t).
Proof.
  intros w t h c D. destruct D as [s|a o ts E F].
  - exists h, (Const s). cbn [copy_filtered filtered]. repeat split; [apply kept_refl|constructor].
  - cbn [copy_filtered filtered]. unfold copy. rewrite E. cbn [alloc].
    set (h1 := h ++ [o]). exists (set_label h1 (List.length h) (add_where w)), (Ref (List.length h)).
    assert (K : kept h (set_label h1 (List.length h) (add_where w)))
      by (apply kept_set_label; [apply kept_app|lia]).
    split; [reflexivity|]. split; [exact K|].
    pose proof (set_label_eq h1 (List.length h) o (add_where w) (alloc_nth h o)) as E1.
    apply (denotes_node _ _ _ ts E1). cbn [kids]. eapply F2_impl; [|exact F].
    intros x y. apply kept_denotes. exact K.
Qed.
Lemma thread_filtered : forall w ts ks h, Forall2 (denotes h) ks ts -> exists h' ks',
  thread (copy_filtered w) h ks = Some (h', ks') /\ kept h h' /\ Forall2 (denotes h') ks' (map (filtered w) ts).
Proof.
  intros w ts. induction ts as [|t ts IH]; intros ks h F; inversion F as [|k ? ks0 ? Dk F']; subst.
  - exists h, []. cbn [thread map]. repeat split; [apply kept_refl|constructor].
  - destruct (copy_filtered_ok w t h k Dk) as (h1 & k' & E1 & K1 & D1).
    destruct (IH ks0 h1) as (h2 & ks' & E2 & K2 & D2).
    { eapply F2_impl; [|exact F']. intros x y. apply kept_denotes. exact K1. }
    exists h2, (k' :: ks'). cbn [thread map]. rewrite E1, E2. split; [reflexivity|].
    split; [eapply kept_trans; eauto|]. constructor; [eapply kept_denotes; eauto|exact D2].
Qed.

Lemma filtered_height : forall w t, height (filtered w t) = height t.
Proof. intros w [s|l ts]; reflexivity. Qed.
Lemma kids_height : forall n ts t, S (list_max (map height ts)) <= S n -> In t ts -> height t <= n.
Proof. intros n ts t H I. pose proof (height_In _ _ I). lia. Qed.

Lemma push_ok : forall n t, height t <= n -> rewrites (pushed []) (push n) t.
Proof.
  induction n as [|n IH]; intros t Hn h c D.
  - destruct t as [s|l ts]; [|cbn [height] in Hn; lia]. inversion D; subst.
    exists h, (Const s), (TConst s). cbn [push]. split; [reflexivity|]. split; [apply kept_refl|].
    split; [constructor|]. split; [constructor|]. intros b M; inversion M.
  - destruct t as [s|l ts].
    { inversion D; subst. exists h, (Const s), (TConst s). cbn [push]. split; [reflexivity|]. split; [apply kept_refl|].
      split; [constructor|]. split; [constructor|]. intros b M; inversion M. }
    destruct c as [a|]; [|inversion D]. pose proof D as D0.
    apply denotes_inv in D as (o & us & E & F & X). injection X as -> ->.
    cbn [push]. rewrite E. destruct (kids o) as [|k0 ks0] eqn:Ko.
    + destruct (deepcopy_ref h a _ D0) as (h' & a' & Ed & K & D' & N & _).
      exists h', (Ref a'), (Node (lab o) us). split; [exact Ed|]. split; [exact K|]. split; [exact D'|].
      split; [|exact N]. inversion F; subst.
      assert (L : lab o = with_where (whr (lab o)) (lab o)) by (now destruct (lab o)).
      rewrite L at 2. constructor. intros f. reflexivity.
    + unfold copy. rewrite E. cbn [alloc]. set (h1 := (h ++ [o]) : heap). set (a' := List.length h).
      assert (Une : us <> []) by (intros ->; inversion F).
      assert (F1 : Forall2 (denotes h1) (k0 :: ks0) us)
        by (eapply F2_impl; [|exact F]; intros x y; apply kept_denotes; apply kept_app).
      assert (E1 : nth_error h1 a' = Some o) by apply alloc_nth.
      assert (Mid : exists h2 ks2 us2,
                match whr (lab o) with [] => Some (h1, k0 :: ks0) | _ => thread (copy_filtered (whr (lab o))) h1 (k0 :: ks0) end
                = Some (h2, ks2) /\ kept h1 h2 /\ Forall2 (denotes h2) ks2 us2 /\
                (forall us3, Forall2 (pushed []) us2 us3 -> Forall2 (pushed (whr (lab o))) us us3) /\
                Forall (fun u => height u <= n) us2).
      { assert (Hk : Forall (fun u => height u <= n) us)
          by (rewrite Forall_forall; intros u; apply (kids_height n us u); exact Hn).
        destruct (whr (lab o)) as [|w0 w] eqn:Ew.
        - exists h1, (k0 :: ks0), us. repeat split; auto; apply kept_refl.
        - destruct (thread_filtered (w0 :: w) us (k0 :: ks0) h1 F1) as (h2 & ks2 & E2 & K2 & D2).
          exists h2, ks2, (map (filtered (w0 :: w)) us). split; [exact E2|]. split; [exact K2|]. split; [exact D2|].
          split.
          + clear. intros us3. revert us. induction us3 as [|v us3 IH]; intros us P.
            * destruct us; [constructor|inversion P].
            * destruct us as [|u us]; inversion P; subst. constructor; [now apply pushed_filtered|auto].
          + rewrite Forall_map. eapply Forall_impl; [|exact Hk]. intros u. now rewrite filtered_height. }
      destruct Mid as (h2 & ks2 & us2 & Em & K2 & D2 & Tr & H2).
      assert (Em' : match whr (lab o) with [] => Some (h1, k0 :: ks0)
                    | s :: l => thread (copy_filtered (s :: l)) h1 (k0 :: ks0) end = Some (h2, ks2)).
      { destruct (whr (lab o)); exact Em. }
      rewrite Em'.
      destruct (thread_rewrites (pushed []) (push n) us2 ks2 h2) as (h3 & ks3 & us3 & E3 & K3 & D3 & R3 & N3).
      { eapply Forall_impl; [|exact H2]. intros u Hu. now apply IH. }
      { exact D2. }
      rewrite E3.
      assert (Ea : nth_error h3 a' = Some o) by (apply K3; apply K2; exact E1).
      assert (K03 : kept h1 h3) by (eapply kept_trans; eauto).
      assert (L1 : List.length h1 = S a') by (unfold h1, a'; rewrite app_length; cbn [List.length]; lia).
      set (h4 := set_label (set_kids h3 a' ks3) a' (with_where [])).
      assert (G : forall b, b <> a' -> nth_error h4 b = nth_error h3 b)
        by (intros b B; unfold h4; rewrite set_label_neq by exact B; now apply set_kids_neq).
      assert (E4 : nth_error h4 a' = Some {| lab := with_where [] (lab o); kids := ks3 |})
        by (exact (set_label_eq _ _ _ _ (set_kids_eq _ _ _ _ Ea))).
      assert (N31 : Forall (fun k => forall b, made_of h3 k b -> a' < b) ks3).
      { eapply Forall_impl; [|exact N3]. intros k N b M.
        pose proof (proj1 (new_iff _ _ _) N b M). pose proof (kept_length _ _ K2). lia. }
      destruct (finish_node h h3 h4 a' _ ks3 us3 (le_n _) G E4 D3 N31) as [D5 N5].
      exists h4, (Ref a'), (Node (with_where [] (lab o)) us3).
      split; [reflexivity|]. split.
      { apply kept_set_label; [apply kept_set_kids|]; try (unfold a'; lia).
        eapply kept_trans; [apply kept_app|exact K03]. }
      split; [exact D5|]. split; [|exact N5]. constructor; [exact Une|]. cbn [app]. apply Tr. exact R3.
Qed.

Lemma push_filters_ok : forall key t, rewrites (pushed key) (push_filters_to_leaf key) t.
Proof.
  intros key t h c D. destruct c as [a|s].
  - unfold push_filters_to_leaf. destruct key as [|w0 w].
    + apply push_ok; [|exact D]. pose proof (height_le _ _ _ D). lia.
    + destruct (deepcopy_ref h a t D) as (h1 & a' & E & K & D1 & N & La). rewrite E.
      apply denotes_inv in D1 as D2. destruct D2 as (o & ts & E1 & F & ->).
      set (h2 := set_label h1 a' (add_where (w0 :: w))).
      assert (D2 : denotes h2 (Ref a') (filtered (w0 :: w) (Node (lab o) ts))).
      { cbn [filtered]. pose proof (set_label_eq h1 a' o (add_where (w0 :: w)) E1) as E2.
        apply (denotes_node h2 a' _ ts E2). cbn [kids].
        assert (Q : forall k b, In k (kids o) -> made_of h1 k b -> b <> a').
        { intros k b Kin M. eapply not_below; eauto. }
        clear - F Q. revert Q. generalize (kids o), F. clear F. intros ks F.
        induction F as [|k u ks us Dk F I]; intros Q; constructor.
        - eapply denotes_agree; [exact Dk|]. intros b M. apply set_label_neq. eapply Q; [now left|exact M].
        - apply I. intros k' b Kin. apply Q. now right. }
      assert (Hh : height (filtered (w0 :: w) (Node (lab o) ts)) <= S (List.length h)).
      { rewrite filtered_height. pose proof (height_le _ _ _ D). lia. }
      destruct (push_ok _ _ Hh h2 (Ref a') D2) as (h' & c' & t' & Ep & K2 & D' & P & N').
      assert (K02 : kept h h2) by (apply kept_set_label; auto).
      exists h', c', t'. split; [exact Ep|]. split; [eapply kept_trans; eauto|]. split; [exact D'|].
      split; [now apply pushed_filtered|]. eapply new_weaken; eauto.
  - inversion D; subst. exists h, (Const s), (TConst s). split; [reflexivity|]. split; [apply kept_refl|].
    split; [constructor|]. split; [constructor|]. intros b M. inversion M.
Qed.

(** ** The other rewrites *)
Lemma build_ok : forall t h, kept h (fst (build h t)) /\ denotes (fst (build h t)) (snd (build h t)) t /\
  all_new h (fst (build h t)) (snd (build h t)).
Proof.
  intros t. induction t as [s|l ts IH] using tree_ind2; intros h.
  - cbn [build fst snd]. split; [apply kept_refl|]. split; [constructor|]. intros b M; inversion M.
  - cbn [build].
    set (go := fix go (h : heap) (ts : list tree) : heap * list child :=
      match ts with
      | [] => (h, [])
      | t :: r => let (h1, k) := build h t in let (h2, ks) := go h1 r in (h2, k :: ks)
      end).
    assert (G : kept h (fst (go h ts)) /\ Forall2 (denotes (fst (go h ts))) (snd (go h ts)) ts /\
              Forall (all_new h (fst (go h ts))) (snd (go h ts))).
    { revert h. induction IH as [|t ts It IH I]; intros h.
      - cbn. split; [apply kept_refl|]. split; constructor.
      - cbn [go]. destruct (It h) as (K1 & D1 & N1). destruct (build h t) as [h1 k]. cbn [fst snd] in *.
        fold go. destruct (I h1) as (K2 & D2 & N2). destruct (go h1 ts) as [h2 ks]. cbn [fst snd] in *.
        split; [eapply kept_trans; eauto|]. split; [constructor; [eapply kept_denotes; eauto|exact D2]|].
        constructor; [eapply new_kept; eauto|]. eapply Forall_impl; [|exact N2]. intros x. now apply new_weaken. }
    destruct (go h ts) as [h1 ks]. cbn [fst snd] in G. destruct G as (K & F & N). cbn [alloc fst snd].
    split; [eapply kept_trans; [exact K|apply kept_app]|].
    apply (new_node h _ _ l ks ts).
    + now apply kept_length.
    + apply alloc_nth.
    + eapply F2_impl; [|exact F]. intros x y. apply kept_denotes. apply kept_app.
    + generalize (kept_app h1 [{| lab := l; kids := ks |}]).
      generalize (h1 ++ [{| lab := l; kids := ks |}]) as h2. intros h2 K2. clear - F N K2.
      induction N as [|k ks Nk N I] in ts, F |- *; constructor; inversion F; subst.
      * eapply new_kept; [exact K2|eassumption|exact Nk].
      * eapply I; eassumption.
Qed.

Lemma rewritten_node : forall leaf inner l t ts, rewritten leaf inner (Node l (t :: ts)) =
  Node (inner l) (map (rewritten leaf inner) (t :: ts)).
Proof. reflexivity. Qed.
Lemma F2_map : forall (f : tree -> tree) ts ts', Forall2 (fun t t' => t' = f t) ts ts' -> ts' = map f ts.
Proof. intros f ts ts' F. induction F; cbn [map]; congruence. Qed.

Section Rewrites.
Variable equivalent : label -> option tree.
Variable preaggregated : label -> label.
Variable loo_inner : label -> label.
Variable loo_leaf : label -> option label.

Definition leaf_equivalent (l : label) : tree := match equivalent l with Some t => t | None => Node l [] end.

(** Below the root the equivalent tree may contain objects of the argument. *)
Lemma equivalent_ok : forall n t, height t <= n -> forall h c, denotes h c t -> exists h' c',
  equivalent_tree equivalent n h c = Some (h', c') /\ kept h h' /\
  denotes h' c' (rewritten leaf_equivalent (fun l => l) t) /\
  (forall b, made_of h' c' b -> List.length h <= b \/ made_of h c b /\ exists l, t = Node l []).
Proof.
  induction n as [|n IH]; intros t Hn h c D.
  - destruct t as [s|l ts]; [|cbn [height] in Hn; lia]. inversion D; subst.
    exists h, (Const s). split; [reflexivity|]. split; [apply kept_refl|]. split; [constructor|].
    intros b M; inversion M.
  - destruct t as [s|l ts].
    { inversion D; subst. exists h, (Const s). split; [reflexivity|]. split; [apply kept_refl|]. split; [constructor|].
      intros b M; inversion M. }
    destruct c as [a|]; [|inversion D]. pose proof D as D0.
    apply denotes_inv in D as (o & us & E & F & X). injection X as -> ->.
    cbn [equivalent_tree]. rewrite E. destruct (kids o) as [|k0 ks0] eqn:Ko.
    + inversion F; subst. cbn [rewritten]. unfold leaf_equivalent.
      destruct (equivalent (lab o)) as [t|].
      * destruct (build_ok t h) as (K & Dt & N). destruct (build h t) as [h' c']. cbn [fst snd] in *.
        exists h', c'. split; [reflexivity|]. split; [exact K|]. split; [exact Dt|].
        intros b M. left. exact (proj1 (new_iff _ _ _) N b M).
      * exists h, (Ref a). split; [reflexivity|]. split; [apply kept_refl|]. split; [exact D0|].
        intros b M. right. split; [exact M|eauto].
    + destruct (deepcopy_ref h a _ D0) as (h1 & a' & Ed & K1 & D1 & N1 & La). rewrite Ed.
      pose proof D1 as D1'. apply denotes_inv in D1' as (o1 & us1 & E1 & F1 & X). injection X as XL <-.
      rewrite E1.
      assert (Hus : Forall (fun u => height u <= n) us)
        by (rewrite Forall_forall; intros u; apply (kids_height n us u); exact Hn).
      assert (Qn : forall k b, In k (kids o1) -> made_of h1 k b -> List.length h <= b /\ b <> a').
      { intros k b Kin M. split.
        - apply (proj1 (new_iff _ _ _) N1). econstructor; eauto.
        - rewrite XL in D1. eapply not_below; eauto. }
      assert (Th : exists h2 ks, thread (equivalent_tree equivalent n) h1 (kids o1) = Some (h2, ks) /\ kept h1 h2 /\
                Forall2 (denotes h2) ks (map (rewritten leaf_equivalent (fun l => l)) us) /\
                Forall (fun k => forall b, made_of h2 k b -> List.length h <= b /\ b <> a') ks).
      { assert (La1 : a' < List.length h1) by (apply nth_error_Some; congruence).
        pose proof (kept_length _ _ K1) as Lh. clear - IH F1 Hus Qn La1 Lh. revert F1 Qn La1 Lh.
        generalize (kids o1). revert h1. induction Hus as [|u us Hu Hus I]; intros h1 ks F1 Qn La1 Lh.
        - inversion F1; subst. exists h1, []. split; [reflexivity|]. split; [apply kept_refl|]. split; constructor.
        - inversion F1 as [|k ? ks0 ? Dk F1']; subst.
          destruct (IH u Hu h1 k Dk) as (h2 & k' & E2 & K2 & D2 & M2).
          destruct (I h2 ks0) as (h3 & ks' & E3 & K3 & D3 & M3).
          + eapply F2_impl; [|exact F1']. intros x y. apply kept_denotes. exact K2.
          + intros k1 b Kin M. apply (Qn k1); [now right|].
            destruct (F2_left _ _ _ _ F1' Kin) as (u1 & _ & Du1). eapply kept_made_of; eauto.
          + pose proof (kept_length _ _ K2). lia.
          + pose proof (kept_length _ _ K2). lia.
          + exists h3, (k' :: ks'). cbn [thread map]. rewrite E2, E3. split; [reflexivity|].
            split; [eapply kept_trans; eauto|]. split; [constructor; [eapply kept_denotes; eauto|exact D3]|].
            constructor; [|exact M3]. intros b M.
            assert (M' : made_of h2 k' b) by (eapply kept_made_of; eauto).
            destruct (M2 b M') as [L|[M1 _]]; [lia|]. apply (Qn k); [now left|exact M1]. }
      destruct Th as (h2 & ks & Et & K2 & D2 & M2). rewrite Et.
      assert (E2 : nth_error h2 a' = Some o1) by (apply K2; exact E1).
      exists (set_kids h2 a' ks), (Ref a'). split; [reflexivity|].
      split; [apply kept_set_kids; [eapply kept_trans; eauto|exact La]|].
      assert (G : forall b, b <> a' -> nth_error (set_kids h2 a' ks) b = nth_error h2 b)
        by (intros b B; now apply set_kids_neq).
      pose proof (set_kids_eq _ _ _ ks E2) as E3.
      assert (Q : Forall2 (denotes (set_kids h2 a' ks)) ks (map (rewritten leaf_equivalent (fun l => l)) us) /\
                  Forall (all_new h (set_kids h2 a' ks)) ks).
      { revert G. generalize (set_kids h2 a' ks) as h4. intros h4 G. clear - D2 M2 G.
        revert D2. generalize (map (rewritten leaf_equivalent (fun l => l)) us) as vs.
        induction M2 as [|k ks Mk M I]; intros vs D2; inversion D2 as [|? v ? vs0 Dk Dks]; subst; [split; constructor|].
        destruct (I vs0 Dks) as [I1 I2].
        assert (Ag : forall b, made_of h2 k b -> nth_error h4 b = nth_error h2 b)
          by (intros b Hb; apply G; now apply Mk).
        split; constructor; auto; [eapply denotes_agree; eauto|].
        apply new_iff. intros b Hb. apply Mk. eapply made_of_agree; eauto. }
      rewrite <- XL in E3.
      destruct (new_node h _ a' _ ks _ La E3 (proj1 Q) (proj2 Q)) as [D5 N5].
      split.
      { destruct us; [inversion F|]. rewrite rewritten_node. exact D5. }
      intros b M. left. exact (proj1 (new_iff _ _ _) N5 b M).
Qed.

Lemma preaggregated_ok : forall n t, height t <= n ->
  rewrites (fun t t' => t' = rewritten (fun l => Node (preaggregated l) []) (fun l => l) t)
    (preaggregated_tree preaggregated n) t.
Proof.
  induction n as [|n IH]; intros t Hn h c D.
  - destruct t as [s|l ts]; [|cbn [height] in Hn; lia]. inversion D; subst.
    exists h, (Const s), (TConst s). split; [reflexivity|]. split; [apply kept_refl|].
    split; [constructor|]. split; [reflexivity|]. intros b M; inversion M.
  - destruct t as [s|l ts].
    { inversion D; subst. exists h, (Const s), (TConst s). split; [reflexivity|]. split; [apply kept_refl|].
      split; [constructor|]. split; [reflexivity|]. intros b M; inversion M. }
    destruct c as [a|]; [|inversion D].
    apply denotes_inv in D as (o & us & E & F & X). injection X as -> ->.
    cbn [preaggregated_tree]. rewrite E. destruct (kids o) as [|k0 ks0] eqn:Ko.
    + inversion F; subst. cbn [alloc]. eexists _, _, _. split; [reflexivity|]. split; [apply kept_app|].
      destruct (new_node h (h ++ [{| lab := preaggregated (lab o); kids := [] |}]) (List.length h) _ [] []
                  (le_n _) (alloc_nth _ _) (Forall2_nil _) (Forall_nil _)) as [D5 N5].
      split; [exact D5|]. split; [reflexivity|exact N5].
    + unfold copy. rewrite E. cbn [alloc]. set (h1 := (h ++ [o]) : heap). set (a' := List.length h).
      assert (F1 : Forall2 (denotes h1) (k0 :: ks0) us)
        by (eapply F2_impl; [|exact F]; intros x y; apply kept_denotes; apply kept_app).
      assert (Hus : Forall (rewrites (fun t t' => t' = rewritten (fun l => Node (preaggregated l) []) (fun l => l) t)
                 (preaggregated_tree preaggregated n)) us)
        by (rewrite Forall_forall; intros u U; apply IH; apply (kids_height n us u); [exact Hn|exact U]).
      destruct (thread_rewrites _ _ us (k0 :: ks0) h1 Hus F1) as (h3 & ks3 & us3 & E3 & K3 & D3 & R3 & N3).
      rewrite E3.
      assert (Ea : nth_error h3 a' = Some o) by (apply K3; apply alloc_nth).
      assert (L1 : List.length h1 = S a') by (unfold h1, a'; rewrite app_length; cbn [List.length]; lia).
      assert (N31 : Forall (fun k => forall b, made_of h3 k b -> a' < b) ks3).
      { eapply Forall_impl; [|exact N3]. intros k N b M. pose proof (proj1 (new_iff _ _ _) N b M). lia. }
      destruct (finish_node h h3 (set_kids h3 a' ks3) a' _ ks3 us3 (le_n _)
                  (fun b B => set_kids_neq h3 a' ks3 b B) (set_kids_eq _ _ _ _ Ea) D3 N31) as [D5 N5].
      eexists _, _, _. split; [reflexivity|]. split.
      { apply kept_set_kids; [|unfold a'; lia]. eapply kept_trans; [apply kept_app|exact K3]. }
      split; [exact D5|]. split; [|exact N5]. rewrite (F2_map _ _ _ R3).
      destruct us; [inversion F|]. reflexivity.
Qed.

Definition loo_tree (t : tree) : tree :=
  rewritten (fun l => match loo_leaf l with Some l' => Node l' [] | None => Node (loo_inner (with_where [] l)) [] end)
    (fun l => loo_inner (with_where [] l)) t.

(** Only leaves are replaced. *)
Inductive loo_ok : tree -> Prop :=
| loo_ok_const s : loo_ok (TConst s)
| loo_ok_node l ts : (ts <> [] -> loo_leaf l = None) -> Forall loo_ok ts -> loo_ok (Node l ts).

Lemma modify_ok : forall n t, height t <= n -> loo_ok t ->
  rewrites (fun t t' => t' = loo_tree t) (modify_descendants loo_inner loo_leaf n) t.
Proof.
  induction n as [|n IH]; intros t Hn HO h c D.
  - destruct t as [s|l ts]; [|cbn [height] in Hn; lia]. inversion D; subst.
    exists h, (Const s), (TConst s). split; [reflexivity|]. split; [apply kept_refl|].
    split; [constructor|]. split; [reflexivity|]. intros b M; inversion M.
  - destruct t as [s|l ts].
    { inversion D; subst. exists h, (Const s), (TConst s). split; [reflexivity|]. split; [apply kept_refl|].
      split; [constructor|]. split; [reflexivity|]. intros b M; inversion M. }
    destruct c as [a|]; [|inversion D]. pose proof D as D0.
    apply denotes_inv in D as (o & us & E & F & X). injection X as -> ->.
    inversion HO as [|? ? Hl HOs]; subst.
    cbn [modify_descendants].
    destruct (deepcopy_ref h a _ D0) as (h1 & a' & Ed & K1 & D1 & N1 & La). rewrite Ed, E.
    pose proof D1 as D1'. apply denotes_inv in D1' as (o1 & us1 & E1 & F1 & X). injection X as XL <-.
    set (h2 := set_label h1 a' (with_where [])).
    pose proof (set_label_eq h1 a' o1 (with_where []) E1) as E2. fold h2 in E2. rewrite E2.
    assert (K2 : kept h h2) by (apply kept_set_label; assumption).
    destruct (loo_leaf (lab o)) as [l'|] eqn:El.
    + cbn [alloc]. destruct us as [|u us]; [|specialize (Hl ltac:(discriminate)); congruence].
      eexists _, _, _. split; [reflexivity|]. split; [eapply kept_trans; [exact K2|apply kept_app]|].
      destruct (new_node h (h2 ++ [{| lab := l'; kids := [] |}]) (List.length h2) _ [] []
                  (kept_length _ _ K2) (alloc_nth _ _) (Forall2_nil _) (Forall_nil _)) as [D5 N5].
      split; [exact D5|]. split; [|exact N5]. unfold loo_tree. cbn [rewritten]. now rewrite El.
    + cbn [kids]. set (h3 := set_label h2 a' loo_inner).
      pose proof (set_label_eq h2 a' _ loo_inner E2) as E3. fold h3 in E3. cbn [lab kids] in E3.
      assert (G : forall b, b <> a' -> nth_error h3 b = nth_error h1 b).
      { intros b B. unfold h3, h2. rewrite !set_label_neq by exact B. reflexivity. }
      assert (Qn : forall k b, In k (kids o1) -> made_of h1 k b -> List.length h <= b /\ b <> a').
      { intros k b Kin M. split.
        - apply (proj1 (new_iff _ _ _) N1). econstructor; eauto.
        - rewrite XL in D1. eapply not_below; eauto. }
      assert (F3 : Forall2 (denotes h3) (kids o1) us).
      { clear - F1 Qn G. revert Qn. generalize (kids o1), F1. clear F1. intros ks F.
        induction F as [|k u ks us Dk F I]; intros Q; constructor.
        - eapply denotes_agree; [exact Dk|]. intros b M. apply G. eapply Q; [now left|exact M].
        - apply I. intros k' b Kin. apply Q. now right. }
      assert (Hus : Forall (rewrites (fun t t' => t' = loo_tree t) (modify_descendants loo_inner loo_leaf n)) us).
      { rewrite Forall_forall in *. intros u U. apply IH; [apply (kids_height n us u); [exact Hn|exact U]|auto]. }
      destruct (thread_rewrites _ _ us (kids o1) h3 Hus F3) as (h4 & ks & us4 & E4 & K4 & D4 & R4 & N4).
      rewrite E4.
      assert (Ea : nth_error h4 a' = Some {| lab := loo_inner (with_where [] (lab o1)); kids := kids o1 |})
        by (apply K4; exact E3).
      assert (La3 : a' < List.length h3) by (apply nth_error_Some; congruence).
      assert (N41 : Forall (fun k => forall b, made_of h4 k b -> a' < b) ks).
      { eapply Forall_impl; [|exact N4]. intros k N b M. pose proof (proj1 (new_iff _ _ _) N b M). lia. }
      destruct (finish_node h h4 (set_kids h4 a' ks) a' _ ks us4 La
                  (fun b B => set_kids_neq h4 a' ks b B) (set_kids_eq _ _ _ _ Ea) D4 N41) as [D5 N5].
      cbn [lab] in D5. rewrite <- XL in D5.
      eexists _, _, _. split; [reflexivity|]. split.
      { apply kept_set_kids; [|exact La]. eapply kept_trans; [|exact K4].
        apply kept_set_label; assumption. }
      split; [exact D5|]. split; [|exact N5]. rewrite (F2_map _ _ _ R4). unfold loo_tree.
      destruct us; cbn [rewritten map]; [now rewrite El|reflexivity].
Qed.
End Rewrites.
