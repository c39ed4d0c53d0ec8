From Coq Require Import String List Bool Arith Lia.
From Verif Require Import M_Naming S_Naming.
Import ListNotations.
Open Scope list_scope.

Lemma nkey_eqb_eq a b : nkey_eqb a b = true <-> a = b.
Proof.
  revert b. induction a as [i|i a IH]; intros [j|j b]; cbn [nkey_eqb]; try (split; [discriminate|intros H; discriminate H]).
  - rewrite Nat.eqb_eq. split; [intros ->; reflexivity|intros H; injection H; auto].
  - rewrite andb_true_iff, Nat.eqb_eq, IH. split; [intros [-> ->]; reflexivity|intros H; injection H; auto].
Qed.
Lemma nkey_eqb_refl a : nkey_eqb a a = true.
Proof. apply nkey_eqb_eq. reflexivity. Qed.
Lemma set_at_length o c h : List.length (set_at o c h) = List.length h.
Proof. revert o. induction h as [|x h IH]; intros [|o]; cbn; auto. Qed.
Lemma set_at_same o c h : o < List.length h -> nth o (set_at o c h) [] = c.
Proof. revert o. induction h as [|x h IH]; intros [|o] H; cbn in *; try lia; [reflexivity|apply IH; lia]. Qed.
Lemma set_at_other o o' c h : o <> o' -> nth o' (set_at o c h) [] = nth o' h [].
Proof. revert o o'. induction h as [|x h IH]; intros [|o] [|o'] H; cbn; try congruence; try reflexivity. apply IH. congruence. Qed.
Lemma columns_alloc_old cols s o : o < List.length (heap s) -> columns (snd (alloc cols s)) o = columns s o.
Proof. intros H. unfold columns, alloc. cbn. apply app_nth1. exact H. Qed.
Lemma columns_alloc_new cols s : columns (snd (alloc cols s)) (fst (alloc cols s)) = cols.
Proof. unfold columns, alloc. cbn. rewrite app_nth2 by lia. rewrite Nat.sub_diag. reflexivity. Qed.

Lemma iter_swap {A} (f : A -> A) n x : Nat.iter n f (f x) = f (Nat.iter n f x).
Proof. induction n as [|n IH]; [reflexivity|]. change (f (Nat.iter n f (f x)) = f (f (Nat.iter n f x))). rewrite IH. reflexivity. Qed.
Lemma iter_map {A} (f : A -> A) n x : Nat.iter n (map f) [x] = [Nat.iter n f x].
Proof. induction n as [|n IH]; [reflexivity|]. change (map f (Nat.iter n (map f) [x]) = [f (Nat.iter n f x)]). rewrite IH. reflexivity. Qed.

(** ** Exact behaviour on repetitions of one operation over a leaf *)
Section Repeat.
  Variable multi : nkey -> bool.
  Variables (i l : nat) (x : string) (t : string -> string).
  Notation m := (NOp i t (NLeaf l x)).
  Notation k := (KOp i (KLeaf l)).
  Lemma hits_single n s o : multi k = false -> in_ncache k (ncache s) = Some o -> o < List.length (heap s) ->
    exists s', compute_all multi (repeat (m, false) n) s = (repeat o n, s')
      /\ columns s' o = Nat.iter n (map t) (columns s o) /\ (forall o', o' <> o -> columns s' o' = columns s o').
  Proof.
    intros Hm. revert s. induction n as [|n IH]; intros s Hc Ho.
    - exists s. repeat split.
    - cbn [repeat compute_all]. cbn [compute nkey_of]. rewrite Hc. unfold manipulate. rewrite Hm.
      destruct (IH (assign_columns o (map t (columns s o)) s)) as [s' [E [E1 E2]]].
      + exact Hc.
      + cbn. rewrite set_at_length. exact Ho.
      + rewrite E. exists s'. split; [reflexivity|]. split.
        * rewrite E1. unfold columns at 1, assign_columns. cbn [heap]. rewrite set_at_same by exact Ho.
          apply iter_swap.
        * intros o' Hn. rewrite (E2 o' Hn). unfold columns, assign_columns. cbn [heap]. apply set_at_other. congruence.
  Qed.
  Lemma hits_multi n s o : multi k = true -> in_ncache k (ncache s) = Some o -> o < List.length (heap s) ->
    exists os s', compute_all multi (repeat (m, false) n) s = (os, s')
      /\ map (columns s') os = map (fun j => Nat.iter j (map t) (columns s o)) (seq 1 n)
      /\ (forall o', o' <> o -> o' < List.length (heap s) -> columns s' o' = columns s o').
  Proof.
    intros Hm. revert s. induction n as [|n IH]; intros s Hc Ho.
    - exists [], s. repeat split.
    - cbn [repeat compute_all]. cbn [compute nkey_of]. rewrite Hc. unfold manipulate. rewrite Hm.
      set (s1 := assign_columns o (map t (columns s o)) s).
      assert (E1 : columns s1 o = map t (columns s o)).
      { unfold s1, columns at 1, assign_columns. cbn [heap]. apply set_at_same. exact Ho. }
      assert (L1 : List.length (heap s1) = List.length (heap s)) by apply set_at_length.
      destruct (alloc (columns s1 o) s1) as [o2 s2] eqn:Ea.
      assert (H2 : o2 = List.length (heap s1) /\ s2 = NSt (heap s1 ++ [columns s1 o]) (ncache s1)) by (unfold alloc in Ea; injection Ea; auto).
      destruct H2 as [-> ->].
      destruct (IH (NSt (heap s1 ++ [columns s1 o]) (ncache s1))) as [os [s' [E [E2 E3]]]].
      + exact Hc.
      + cbn [heap]. rewrite app_length. lia.
      + rewrite E. eexists (_ :: os), s'. split; [reflexivity|].
        assert (Eo : columns (NSt (heap s1 ++ [columns s1 o]) (ncache s1)) o = map t (columns s o)).
        { unfold columns at 1. cbn [heap]. rewrite app_nth1 by lia. exact E1. }
        split.
        * cbn [map seq]. f_equal.
          -- rewrite (E3 (List.length (heap s1))); [|lia|cbn [heap]; rewrite app_length; cbn; lia].
             unfold columns at 1. cbn [heap]. rewrite app_nth2 by lia. rewrite Nat.sub_diag. exact E1.
          -- rewrite E2, Eo. rewrite <- (seq_shift n 1), map_map. apply map_ext. intros j. apply iter_swap.
        * intros o' Hn Hl. rewrite (E3 o' Hn); [|cbn [heap]; rewrite app_length; lia].
          unfold columns at 1. cbn [heap]. rewrite app_nth1 by lia.
          unfold s1, assign_columns. cbn [heap]. apply set_at_other. congruence.
  Qed.
  Lemma repeat_single n : multi k = false ->
    list_names multi (repeat (m, false) (S n)) = [t x] :: repeat [Nat.iter n t x] n.
  Proof.
    intros Hm. unfold list_names. cbn [repeat compute_all compute nkey_of in_ncache ncache].
    unfold manipulate. rewrite Hm. unfold alloc, assign_columns, columns. cbn [heap ncache app List.length nth set_at map].
    destruct (hits_single n (NSt [[x]; [t x]; [x]] [(k, 2)]) 2 Hm) as [s' [E [E1 E2]]].
    - cbn [in_ncache ncache]. rewrite nkey_eqb_refl. reflexivity.
    - cbn. lia.
    - rewrite E. cbn [map]. f_equal; [exact (E2 1 ltac:(lia))|].
      change (columns (NSt [[x]; [t x]; [x]] [(k, 2)]) 2) with [x] in E1. rewrite iter_map in E1.
      clear - E1. induction n as [|n' IH] in E1 |- *; [reflexivity|]. 
      assert (forall n0, map (columns s') (repeat 2 n0) = repeat (columns s' 2) n0) as HR by (induction n0; cbn [repeat map]; congruence).
      change (map (columns s') (repeat 2 (S n')) = repeat [Nat.iter (S n') t x] (S n')). rewrite HR, E1. reflexivity.
  Qed.
  Lemma repeat_multi n : multi k = true ->
    list_names multi (repeat (m, false) (S n)) = [t x] :: map (fun j => [Nat.iter j t x]) (seq 1 n).
  Proof.
    intros Hm. unfold list_names. cbn [repeat compute_all compute nkey_of in_ncache ncache].
    unfold manipulate. rewrite Hm. unfold alloc, assign_columns, columns. cbn [heap ncache app List.length nth set_at map].
    destruct (hits_multi n (NSt [[x]; [t x]; [x]; [t x]] [(k, 2)]) 2 Hm) as [os [s' [E [E1 E2]]]].
    - cbn [in_ncache ncache]. rewrite nkey_eqb_refl. reflexivity.
    - cbn. lia.
    - rewrite E. cbn [map]. f_equal; [exact (E2 3 ltac:(lia) ltac:(cbn; lia))|].
      fold (columns s') in *. change (map (columns s') os = map (fun j => [Nat.iter j t x]) (seq 1 n)). rewrite E1.
      apply map_ext. intros j. change (columns (NSt [[x]; [t x]; [x]; [t x]] [(k, 2)]) 2) with [x]. apply iter_map.
  Qed.
End Repeat.

(** ** Trees in which no operation is used in place more than twice *)
Definition occ (k : nkey) (m : nm) : nat := occurrences k [m].
Lemma occurrences_cons k m ms : occurrences k (m :: ms) = occ k m + occurrences k ms.
Proof. unfold occ, occurrences. cbn [flat_map]. rewrite app_nil_r, filter_app, app_length. reflexivity. Qed.
Lemma occ_leaf k i n : occ k (NLeaf i n) = 0.
Proof. reflexivity. Qed.
Lemma occ_op k i t c : occ k (NOp i t c) = (if nkey_eqb (KOp i (nkey_of c)) k then 1 else 0) + occ k c.
Proof.
  unfold occ, occurrences. cbn [flat_map subtrees]. rewrite !app_nil_r. cbn [filter nkey_of].
  destruct (nkey_eqb (KOp i (nkey_of c)) k); reflexivity.
Qed.
Lemma in_subtrees_self m : In m (subtrees m).
Proof. destruct m; left; reflexivity. Qed.

Section Twice.
  Variable multi : nkey -> bool.
  Variable F : nkey -> list string.
  Variable P : nkey -> bool.
  Definition childF (k : nkey) : list string := match k with KLeaf _ => [] | KOp _ c => F c end.
  Record Good (s : nst) (rem : nkey -> nat) : Prop := {
    g_bound : forall k o, in_ncache k (ncache s) = Some o -> o < List.length (heap s);
    g_cols : forall k o, in_ncache k (ncache s) = Some o ->
      (columns s o = childF k /\ (P k = true \/ rem k <= 1)) \/ (P k = false /\ columns s o = F k /\ rem k = 0);
    g_inj : forall k k' o, in_ncache k (ncache s) = Some o -> in_ncache k' (ncache s) = Some o -> k = k';
    g_rem : forall k, P k = false -> rem k <= 2 \/ exists o, in_ncache k (ncache s) = Some o
  }.
  Definition Frozen (s : nst) (rem : nkey -> nat) (o : nat) (l : list string) : Prop :=
    o < List.length (heap s) /\ columns s o = l /\
    forall k, in_ncache k (ncache s) = Some o -> P k = false /\ rem k = 0.
  Definition minus (rem : nkey -> nat) (m : nm) (k : nkey) : nat := rem k - occ k m.

  Lemma good_weaken s rem rem' : (forall k, rem' k <= rem k) -> Good s rem -> Good s rem'.
  Proof.
    intros H [A B C D]. constructor; [exact A| |exact C|].
    - intros k o E. specialize (H k). destruct (B k o E) as [[X [Y|Y]]|[X [Y Z]]]; [left|left|right]; repeat split; auto; try lia; right; lia.
    - intros k E. specialize (H k). destruct (D k E) as [X|X]; [left; lia|right; exact X].
  Qed.
  Lemma frozen_weaken s rem rem' o l : (forall k, rem' k <= rem k) -> Frozen s rem o l -> Frozen s rem' o l.
  Proof. intros H (A & B & C). repeat split; auto. intros; apply (C k H0). specialize (H k). destruct (C k H0). lia. Qed.
  Lemma alloc_good cols s rem : Good s rem -> Good (snd (alloc cols s)) rem.
  Proof.
    intros [A B C D]. constructor.
    - intros k o E. cbn. rewrite app_length. specialize (A k o E). lia.
    - intros k o E. rewrite columns_alloc_old by exact (A k o E). exact (B k o E).
    - exact C.
    - exact D.
  Qed.
  Lemma alloc_frozen cols s rem o l : Frozen s rem o l -> Frozen (snd (alloc cols s)) rem o l.
  Proof.
    intros (A & B & C). split; [cbn; rewrite app_length; lia|]. split; [rewrite columns_alloc_old by exact A; exact B|exact C].
  Qed.
  Lemma alloc_new_frozen cols s rem : Good s rem -> Frozen (snd (alloc cols s)) rem (fst (alloc cols s)) cols.
  Proof.
    intros [A B C D]. split; [cbn; rewrite app_length; cbn; lia|]. split; [apply columns_alloc_new|].
    intros k E. cbn in E. specialize (A k _ E). lia.
  Qed.
  Definition dec (rem : nkey -> nat) (k k' : nkey) : nat := rem k' - (if nkey_eqb k k' then 1 else 0).
  Lemma dec_le rem k k' : dec rem k k' <= rem k'.
  Proof. unfold dec. lia. Qed.
  Lemma dec_self rem k : dec rem k k = rem k - 1.
  Proof. unfold dec. rewrite nkey_eqb_refl. reflexivity. Qed.

  Lemma hit_spec s rem i kc o t melted :
    let k := KOp i kc in
    Good s rem -> in_ncache k (ncache s) = Some o -> 1 <= rem k -> (melted = false -> P k = false) -> map t (F kc) = F k ->
    let r := manipulate multi k t melted o s in
    Good (snd r) (dec rem k) /\ Frozen (snd r) (dec rem k) (fst r) (F k)
    /\ forall o' l, Frozen s rem o' l -> Frozen (snd r) (dec rem k) o' l.
  Proof.
    intros k G Hc Hr Hp Ht. assert (G0 := G). destruct G as [A B C D].
    assert (Ho := A k o Hc).
    assert (Hcol : columns s o = F kc /\ (P k = true \/ rem k <= 1)).
    { destruct (B k o Hc) as [X|[_ [_ X]]]; [exact X|lia]. }
    destruct Hcol as [Hcol Hb]. unfold manipulate. destruct melted.
    - rewrite Hcol, Ht. split; [|split].
      + apply alloc_good, (good_weaken _ rem); [apply dec_le|exact G0].
      + apply alloc_new_frozen, (good_weaken _ rem); [apply dec_le|exact G0].
      + intros o' l Hf. apply alloc_frozen, (frozen_weaken _ rem); [apply dec_le|exact Hf].
    - specialize (Hp eq_refl). assert (Hr1 : rem k = 1) by (destruct Hb as [X|X]; [congruence|lia]).
      set (s1 := assign_columns o (map t (columns s o)) s).
      assert (E1 : columns s1 o = F k).
      { unfold s1, columns at 1, assign_columns. cbn [heap]. rewrite set_at_same by exact Ho. rewrite Hcol. exact Ht. }
      assert (E2 : forall o', o' <> o -> columns s1 o' = columns s o').
      { intros o' Hn. unfold s1, columns at 1, assign_columns. cbn [heap]. apply set_at_other. congruence. }
      assert (L1 : List.length (heap s1) = List.length (heap s)) by apply set_at_length.
      assert (G1 : Good s1 (dec rem k)).
      { constructor.
        - intros k' o' E. rewrite L1. exact (A k' o' E).
        - intros k' o' E. destruct (Nat.eq_dec o' o) as [->|Hn].
          + assert (k' = k) by exact (C _ _ _ E Hc). subst k'. right. rewrite dec_self. repeat split; [exact Hp|exact E1|lia].
          + rewrite (E2 o' Hn). assert (Hd := dec_le rem k k').
            destruct (B k' o' E) as [[X [Y|Y]]|[X [Y Z]]]; [left|left|right]; repeat split; auto; try (right; lia). lia.
        - exact C.
        - intros k' E. destruct (D k' E) as [X|X]; [left; assert (Hd := dec_le rem k k'); lia|right; exact X]. }
      assert (Hf : forall o' l, Frozen s rem o' l -> Frozen s1 (dec rem k) o' l).
      { intros o' l (X & Y & Z). assert (Hn : o' <> o) by (intros ->; destruct (Z k Hc); lia).
        split; [rewrite L1; exact X|]. split; [rewrite (E2 o' Hn); exact Y|].
        intros k' E. destruct (Z k' E) as [U V]. split; [exact U|]. assert (Hd := dec_le rem k k'). lia. }
      destruct (multi k).
      + split; [apply alloc_good, G1|]. split; [rewrite <- E1; apply alloc_new_frozen, G1|].
        intros o' l H. apply alloc_frozen, Hf, H.
      + split; [exact G1|]. split; [|exact Hf]. split; [cbn [fst snd]; rewrite L1; exact Ho|]. split; [exact E1|].
        intros k' E. assert (k' = k) by exact (C _ _ _ E Hc). subst k'. rewrite dec_self. split; [exact Hp|lia].
  Qed.

  Lemma miss_spec s rem i kc oc t melted :
    let k := KOp i kc in
    Good s rem -> Frozen s rem oc (F kc) -> (P k = true \/ rem k <= 2) -> map t (F kc) = F k ->
    let '(raw, s1) := alloc (columns s oc) s in
    let '(copy, s2) := alloc (columns s1 raw) s1 in
    let r := manipulate multi k t melted raw (NSt (heap s2) ((k, copy) :: ncache s2)) in
    Good (snd r) (dec rem k) /\ Frozen (snd r) (dec rem k) (fst r) (F k)
    /\ forall o' l, Frozen s rem o' l -> Frozen (snd r) (dec rem k) o' l.
  Proof.
    intros k G (Hoc & Ecol & _) Hr Ht. rewrite Ecol. cbv zeta.
    pose (n := List.length (heap s)).
    assert (Ea : alloc (F kc) s = (n, NSt (heap s ++ [F kc]) (ncache s))) by reflexivity. rewrite Ea.
    assert (Er : columns (NSt (heap s ++ [F kc]) (ncache s)) n = F kc).
    { unfold columns. cbn [heap]. rewrite app_nth2 by (unfold n; lia). unfold n. rewrite Nat.sub_diag. reflexivity. }
    rewrite Er. unfold alloc at 1. cbn [heap ncache].
    assert (Ln : List.length (heap s ++ [F kc]) = S n) by (rewrite app_length; cbn; unfold n; lia). rewrite Ln.
    pose (h := (heap s ++ [F kc]) ++ [F kc]).
    assert (Lh : List.length h = S (S n)) by (unfold h; rewrite app_length, Ln; cbn; lia).
    assert (Hn0 : nth n h [] = F kc) by (unfold h; rewrite app_nth1 by lia; exact Er).
    assert (Hn1 : nth (S n) h [] = F kc) by (unfold h; rewrite app_nth2 by lia; rewrite Ln, Nat.sub_diag; reflexivity).
    assert (Hold : forall o, o < n -> nth o h [] = columns s o).
    { intros o Ho. unfold h. rewrite app_nth1 by (rewrite Ln; lia). rewrite app_nth1 by exact Ho. reflexivity. }
    fold h. destruct G as [A B C D].
    (* a state with the new cache entry and a heap that agrees off the frame [n] *)
    assert (HG : forall h', List.length h' = S (S n) -> nth (S n) h' [] = F kc -> (forall o, o < n -> nth o h' [] = columns s o) ->
      let s' := NSt h' ((k, S n) :: ncache s) in
      Good s' (dec rem k) /\ (forall o' l, Frozen s rem o' l -> Frozen s' (dec rem k) o' l)
      /\ Frozen s' (dec rem k) n (nth n h' [])).
    { intros h' L' N1 N0 s'. split; [|split].
      - constructor.
        + intros k' o E. cbn [ncache s' in_ncache] in E. cbn [heap s']. rewrite L'. destruct (nkey_eqb k k').
          * injection E as <-. lia.
          * specialize (A k' o E). fold n in A. lia.
        + intros k' o E. cbn [ncache s' in_ncache] in E. unfold columns. cbn [heap s']. destruct (nkey_eqb k k') eqn:Ek.
          * injection E as <-. apply nkey_eqb_eq in Ek. subst k'. left. rewrite dec_self. split; [exact N1|].
            destruct Hr as [X|X]; [left; exact X|right; lia].
          * rewrite (N0 o (A k' o E)). assert (Hd := dec_le rem k k').
            destruct (B k' o E) as [[X [Y|Y]]|[X [Y Z]]]; [left|left|right]; repeat split; auto; try (right; lia). lia.
        + intros k1 k2 o E1 E2. cbn [ncache s' in_ncache] in E1, E2.
          destruct (nkey_eqb k k1) eqn:K1; destruct (nkey_eqb k k2) eqn:K2.
          * apply nkey_eqb_eq in K1, K2. congruence.
          * injection E1 as <-. specialize (A k2 _ E2). fold n in A. lia.
          * injection E2 as <-. specialize (A k1 _ E1). fold n in A. lia.
          * exact (C _ _ _ E1 E2).
        + intros k' E. cbn [ncache s' in_ncache]. destruct (nkey_eqb k k'); [right; eauto|].
          destruct (D k' E) as [X|X]; [left; assert (Hd := dec_le rem k k'); lia|right; exact X].
      - intros o' l (X & Y & Z). split; [cbn [heap s']; rewrite L'; fold n in X; lia|].
        split; [unfold columns; cbn [heap s']; rewrite (N0 o' X); exact Y|].
        intros k' E. cbn [ncache s' in_ncache] in E. destruct (nkey_eqb k k').
        + injection E as <-. fold n in X. lia.
        + destruct (Z k' E) as [U V]. split; [exact U|]. assert (Hd := dec_le rem k k'). lia.
      - split; [cbn [heap s']; rewrite L'; lia|]. split; [reflexivity|].
        intros k' E. cbn [ncache s' in_ncache] in E. destruct (nkey_eqb k k').
        + injection E as E. lia.
        + specialize (A k' _ E). fold n in A. lia. }
    assert (Hcn : columns (NSt h ((k, S n) :: ncache s)) n = F kc) by exact Hn0.
    unfold manipulate. rewrite Hcn, Ht. destruct melted.
    - destruct (HG h Lh Hn1 Hold) as (G1 & F1 & _).
      split; [apply alloc_good, G1|]. split; [apply alloc_new_frozen, G1|]. intros o' l H. apply alloc_frozen, F1, H.
    - destruct (HG (set_at n (F k) h)) as (G1 & F1 & F2).
      + rewrite set_at_length. exact Lh.
      + rewrite set_at_other by lia. exact Hn1.
      + intros o Ho. rewrite set_at_other by lia. exact (Hold o Ho).
      + rewrite set_at_same in F2 by (rewrite Lh; lia).
        unfold assign_columns. cbn [heap ncache]. destruct (multi k).
        * assert (Ec : columns (NSt (set_at n (F k) h) ((k, S n) :: ncache s)) n = F k).
          { unfold columns. cbn [heap]. apply set_at_same. rewrite Lh. lia. }
          rewrite Ec. split; [apply alloc_good, G1|]. split; [apply alloc_new_frozen, G1|]. intros o' l H. apply alloc_frozen, F1, H.
        * split; [exact G1|]. split; [exact F2|exact F1].
  Qed.

  Definition named (m : nm) : Prop := forall a, In a (subtrees m) -> names a = F (nkey_of a).
  Definition in_place_ok (m : nm) (melted : bool) : Prop :=
    forall k, P k = true ->
      (if melted then match m with NLeaf _ _ => 0 | NOp _ _ c => occ k c end else occ k m) = 0.
  Lemma run_spec m : forall melted s rem, named m -> in_place_ok m melted ->
    (forall k, occ k m <= rem k) -> Good s rem ->
    let r := compute multi m melted s in
    Good (snd r) (minus rem m) /\ Frozen (snd r) (minus rem m) (fst r) (names m)
    /\ forall o' l, Frozen s rem o' l -> Frozen (snd r) (minus rem m) o' l.
  Proof.
    induction m as [i n|i t c IH]; intros melted s rem Hn Hi Hr G.
    - assert (Hw : forall k, minus rem (NLeaf i n) k <= rem k) by (intros k; unfold minus; lia).
      cbn [compute names]. split; [apply alloc_good, (good_weaken _ rem); assumption|].
      split; [apply alloc_new_frozen, (good_weaken _ rem); assumption|].
      intros o' l H. apply alloc_frozen, (frozen_weaken _ rem); assumption.
    - pose (k := KOp i (nkey_of c)).
      assert (Ek : names (NOp i t c) = F k) by exact (Hn _ (in_subtrees_self _)).
      assert (Hnc : named c) by (intros a Ha; apply Hn; cbn [subtrees]; right; exact Ha).
      assert (Ec : names c = F (nkey_of c)) by exact (Hnc _ (in_subtrees_self _)).
      assert (Ht : map t (F (nkey_of c)) = F k) by (rewrite <- Ec, <- Ek; reflexivity).
      assert (Ho : forall k', occ k' (NOp i t c) = (if nkey_eqb k k' then 1 else 0) + occ k' c) by (intros k'; apply occ_op).
      assert (Hrk : 1 <= rem k).
      { specialize (Hr k). rewrite Ho, nkey_eqb_refl in Hr. lia. }
      assert (Hp : melted = false -> P k = false).
      { intros ->. destruct (P k) eqn:Hk; [|reflexivity]. specialize (Hi k Hk). cbn iota in Hi. rewrite Ho, nkey_eqb_refl in Hi. lia. }
      rewrite Ek. cbn [compute nkey_of]. fold k.
      destruct (in_ncache k (ncache s)) as [o|] eqn:Hc.
      + assert (Hw : forall k', minus rem (NOp i t c) k' <= dec rem k k') by (intros k'; unfold minus, dec; rewrite Ho; lia).
        destruct (hit_spec s rem i (nkey_of c) o t melted G Hc Hrk Hp Ht) as (G1 & F1 & F2).
        split; [exact (good_weaken _ _ _ Hw G1)|]. split; [exact (frozen_weaken _ _ _ _ _ Hw F1)|].
        intros o' l H. exact (frozen_weaken _ _ _ _ _ Hw (F2 o' l H)).
      + assert (Hic : in_place_ok c false).
        { intros k' Hk. specialize (Hi k' Hk). cbn iota. destruct melted; [exact Hi|]. rewrite Ho in Hi. lia. }
        assert (Hrc : forall k', occ k' c <= rem k') by (intros k'; specialize (Hr k'); rewrite Ho in Hr; lia).
        destruct (IH false s rem Hnc Hic Hrc G) as (G1 & F1 & F2).
        destruct (compute multi c false s) as [oc s0]. cbn [fst snd] in G1, F1, F2.
        assert (Hk2 : P k = true \/ minus rem c k <= 2).
        { destruct (P k) eqn:Hk; [left; reflexivity|right]. destruct (g_rem _ _ G k Hk) as [X|[o X]]; [unfold minus; lia|congruence]. }
        rewrite Ec in F1.
        pose proof (miss_spec s0 (minus rem c) i (nkey_of c) oc t melted G1 F1 Hk2 Ht) as M. fold k in M.
        destruct (alloc (columns s0 oc) s0) as [raw s1]. destruct (alloc (columns s1 raw) s1) as [cp s2].
        destruct M as (M1 & M2 & M3).
        assert (Hw : forall k', minus rem (NOp i t c) k' <= dec (minus rem c) k k') by (intros k'; unfold minus, dec; rewrite Ho; lia).
        split; [exact (good_weaken _ _ _ Hw M1)|]. split; [exact (frozen_weaken _ _ _ _ _ Hw M2)|].
        intros o' l H. exact (frozen_weaken _ _ _ _ _ Hw (M3 o' l (F2 o' l H))).
  Qed.

  Lemma all_spec ms : forall s rem, (forall m f, In (m, f) ms -> named m /\ in_place_ok m f) ->
    (forall k, occurrences k (map fst ms) <= rem k) -> Good s rem ->
    let r := compute_all multi ms s in
    map (columns (snd r)) (fst r) = map (fun p => names (fst p)) ms
    /\ (forall o l, Frozen s rem o l -> columns (snd r) o = l).
  Proof.
    induction ms as [|[m f] ms IH]; intros s rem Hm Hr G.
    - cbn. split; [reflexivity|]. intros o l (_ & H & _). exact H.
    - destruct (Hm m f (or_introl eq_refl)) as [Hn Hi].
      assert (Ho : forall k, occ k m + occurrences k (map fst ms) <= rem k).
      { intros k. specialize (Hr k). cbn [map fst] in Hr. rewrite occurrences_cons in Hr. exact Hr. }
      destruct (run_spec m f s rem Hn Hi) as (G1 & F1 & F2); [intros k; specialize (Ho k); lia|exact G|].
      cbn [compute_all]. destruct (compute multi m f s) as [o1 s1]. cbn [fst snd] in G1, F1, F2.
      destruct (IH s1 (minus rem m)) as [E1 E2].
      + intros m' f' H. apply Hm. right. exact H.
      + intros k. unfold minus. specialize (Ho k). lia.
      + exact G1.
      + destruct (compute_all multi ms s1) as [os s2]. cbn [fst snd] in *. split.
        * cbn [map fst]. rewrite E1. f_equal. exact (E2 _ _ F1).
        * intros o l H. exact (E2 _ _ (F2 _ _ H)).
  Qed.
End Twice.

Lemma find_key (l : list nm) a : (forall a b, In a l -> In b l -> nkey_of a = nkey_of b -> names a = names b) -> In a l ->
  match find (fun m => nkey_eqb (nkey_of m) (nkey_of a)) l with Some m => names m | None => [] end = names a.
Proof.
  intros H Ha. destruct (find _ l) as [b|] eqn:E.
  - apply find_some in E. destruct E as [Hb E]. apply nkey_eqb_eq in E. exact (H b a Hb Ha E).
  - exfalso. apply (find_none _ _ E) in Ha. cbn beta in Ha. rewrite nkey_eqb_refl in Ha. discriminate.
Qed.
Lemma occ_zero_in k m ms : In m ms -> occurrences k ms = 0 -> occ k m = 0.
Proof.
  intros H E. induction ms as [|a ms IH]; [destruct H|]. rewrite occurrences_cons in E. destruct H as [->|H]; [lia|apply IH; [exact H|lia]].
Qed.
Lemma list_names_twice multi (ms : list (nm * bool)) :
  consistent (map fst ms) ->
  (forall k, occurrences k (map fst ms) <= 2 \/ occurrences k (renamed_in_place ms) = 0) ->
  list_names multi ms = map (fun p => names (fst p)) ms.
Proof.
  intros Hc Ho. unfold list_names.
  pose (F := fun k => match find (fun m => nkey_eqb (nkey_of m) k) (flat_map subtrees (map fst ms)) with Some m => names m | None => [] end).
  pose (P := fun k => Nat.eqb (occurrences k (renamed_in_place ms)) 0).
  pose proof (all_spec multi F P ms (NSt [] []) (fun k => occurrences k (map fst ms))) as A.
  destruct (compute_all multi ms (NSt [] [])) as [os s]. apply A; clear A.
  - intros m f H. split.
    + intros a Ha. unfold F. symmetry. apply find_key; [exact Hc|]. apply in_flat_map. exists m. split; [|exact Ha].
      apply in_map_iff. exists (m, f). split; [reflexivity|exact H].
    + intros k Hk. apply Nat.eqb_eq in Hk. destruct f, m as [i n|i t c]; try reflexivity; apply (occ_zero_in k _ _) with (2 := Hk);
        apply in_flat_map; eexists; (split; [exact H|left; reflexivity]).
  - intros k. lia.
  - constructor; try (intros; discriminate). intros k Hk. apply Nat.eqb_neq in Hk. left. destruct (Ho k) as [X|X]; [exact X|congruence].
Qed.

(** ** SQL mixed mode: names are right however often a metric is repeated *)
Section Mixed.
  Variable multi : nkey -> bool.
  Variable F : nkey -> list string.
  Definition GoodM (s : nst) : Prop := forall k o, in_ncache k (ncache s) = Some o -> o < List.length (heap s) /\ columns s o = F k.
  Definition keeps (s s' : nst) : Prop := List.length (heap s) <= List.length (heap s') /\
    forall o, o < List.length (heap s) -> columns s' o = columns s o.
  Lemma keeps_trans a b c : keeps a b -> keeps b c -> keeps a c.
  Proof. intros [H1 H2] [H3 H4]. split; [lia|]. intros o Ho. rewrite H4 by lia. apply H2, Ho. Qed.
  Lemma keeps_refl a : keeps a a.
  Proof. split; auto. Qed.
  Lemma keeps_alloc cols s : keeps s (snd (alloc cols s)).
  Proof. split; [cbn; rewrite app_length; lia|]. intros o Ho. apply columns_alloc_old, Ho. Qed.
  Lemma goodM_alloc cols s : GoodM s -> GoodM (snd (alloc cols s)).
  Proof. intros G k o E. destruct (G k o E) as [A B]. split; [cbn; rewrite app_length; lia|]. rewrite columns_alloc_old by exact A. exact B. Qed.
  Lemma mixed_spec m : forall s, named F m -> GoodM s ->
    let r := compute_mixed multi m s in
    GoodM (snd r) /\ keeps s (snd r) /\ fst r < List.length (heap (snd r)) /\ columns (snd r) (fst r) = names m.
  Proof.
    assert (Hal : forall cols s, GoodM s -> GoodM (snd (alloc cols s)) /\ keeps s (snd (alloc cols s))
       /\ fst (alloc cols s) < List.length (heap (snd (alloc cols s))) /\ columns (snd (alloc cols s)) (fst (alloc cols s)) = cols).
    { intros cols s G. split; [apply goodM_alloc, G|]. split; [apply keeps_alloc|]. split; [cbn; rewrite app_length; cbn; lia|apply columns_alloc_new]. }
    induction m as [i n|i t c IH]; intros s Hn G; [apply Hal, G|].
    assert (Ek : names (NOp i t c) = F (KOp i (nkey_of c))) by exact (Hn _ (in_subtrees_self _)).
    assert (Hnc : named F c) by (intros a Ha; apply Hn; cbn [subtrees]; right; exact Ha).
    rewrite Ek. cbn [compute_mixed nkey_of]. set (k := KOp i (nkey_of c)) in *.
    destruct (in_ncache k (ncache s)) as [o|] eqn:Hc.
    - destruct (G k o Hc) as [A B]. destruct (multi k).
      + rewrite B. apply Hal, G.
      + split; [exact G|]. split; [apply keeps_refl|]. split; [exact A|exact B].
    - destruct (IH s Hnc G) as (G1 & K1 & L1 & E1).
      destruct (compute_mixed multi c s) as [oc s0]. cbn [fst snd] in G1, K1, L1, E1.
      rewrite E1. change (map t (names c)) with (names (NOp i t c)). rewrite Ek.
      destruct (Hal (F k) s0 G1) as (G2 & K2 & L2 & E2).
      destruct (alloc (F k) s0) as [raw s1]. cbn [fst snd] in G2, K2, L2, E2. rewrite E2.
      destruct (Hal (F k) s1 G2) as (G3 & K3 & L3 & E3).
      destruct (alloc (F k) s1) as [cp s2]. cbn [fst snd] in G3, K3, L3, E3.
      pose (s3 := NSt (heap s2) ((k, cp) :: ncache s2)).
      assert (G4 : GoodM s3).
      { intros k' o E. cbn [ncache s3 in_ncache] in E. destruct (nkey_eqb k k') eqn:Hk.
        - injection E as <-. apply nkey_eqb_eq in Hk. subst k'. split; [exact L3|exact E3].
        - exact (G3 k' o E). }
      assert (K4 : keeps s s3) by exact (keeps_trans _ _ _ K1 (keeps_trans _ _ _ K2 K3)).
      assert (Lr : raw < List.length (heap s3)) by (destruct K3; cbn [heap s3]; lia).
      assert (Er : columns s3 raw = F k).
      { destruct K3 as [_ K3]. exact (eq_trans (K3 raw L2) E2). }
      fold s3. destruct (multi k).
      + rewrite Er. destruct (Hal (F k) s3 G4) as (G5 & K5 & L5 & E5).
        split; [exact G5|]. split; [exact (keeps_trans _ _ _ K4 K5)|]. split; [exact L5|exact E5].
      + split; [exact G4|]. split; [exact K4|]. split; [exact Lr|exact Er].
  Qed.
  Lemma all_mixed_spec ms : forall s, (forall m, In m ms -> named F m) -> GoodM s ->
    let r := compute_all_mixed multi ms s in
    keeps s (snd r) /\ map (columns (snd r)) (fst r) = map names ms.
  Proof.
    induction ms as [|m ms IH]; intros s Hm G; [split; [apply keeps_refl|reflexivity]|].
    destruct (mixed_spec m s (Hm m (or_introl eq_refl)) G) as (G1 & K1 & L1 & E1).
    cbn [compute_all_mixed]. destruct (compute_mixed multi m s) as [o1 s1]. cbn [fst snd] in *.
    destruct (IH s1 (fun m' H => Hm m' (or_intror H)) G1) as (K2 & E2).
    destruct (compute_all_mixed multi ms s1) as [os s2]. cbn [fst snd] in *.
    split; [exact (keeps_trans _ _ _ K1 K2)|]. cbn [map]. rewrite E2. f_equal. destruct K2 as [_ K2]. rewrite (K2 _ L1). exact E1.
  Qed.
End Mixed.
Lemma list_names_mixed_right multi ms : consistent ms -> list_names_mixed multi ms = map names ms.
Proof.
  intros Hc. unfold list_names_mixed.
  pose (F := fun k => match find (fun m => nkey_eqb (nkey_of m) k) (flat_map subtrees ms) with Some m => names m | None => [] end).
  pose proof (all_mixed_spec multi F ms (NSt [] [])) as A.
  destruct (compute_all_mixed multi ms (NSt [] [])) as [os s]. apply A; clear A.
  - intros m H a Ha. unfold F. symmetry. apply find_key; [exact Hc|]. apply in_flat_map. exists m. split; [exact H|exact Ha].
  - intros k o E. discriminate E.
Qed.
