From Coq Require Import List String Ascii Bool Arith NArith Lia Permutation.
From Verif Require Import M_SqlText L_SqlText M_SqlFilter S_SqlFilter.
Import ListNotations.
Local Open Scope list_scope.

(** *** Lexing concatenations *)
Lemma lex_app_space s : forall cur q t1 c s2, is_space c = true ->
  lex cur q s = Some t1 ->
  lex cur q (s ++ c :: s2) = option_map (app t1) (lex [] None s2).
Proof.
  assert (Hq : forall c, is_space c = true -> is_quote c = false).
  { intros c Hc. apply negb_true_iff.
    assert (H : forall c, implb (is_space c) (negb (is_quote c)) = true).
    { intros d. apply (ascii_forall (fun d => implb (is_space d) (negb (is_quote d)))). vm_compute. reflexivity. }
    specialize (H c). rewrite Hc in H. exact H. }
  induction s as [|x s IH]; intros cur q t1 c s2 Hc H; simpl in *.
  - destruct q; [discriminate|]. injection H as <-. rewrite (Hq _ Hc), Hc. reflexivity.
  - destruct q as [qc|]; [apply IH; assumption|].
    destruct (is_quote x); [apply IH; assumption|].
    destruct (is_space x).
    { destruct (lex [] None s) as [r|] eqn:E; [|discriminate]. injection H as <-.
      rewrite (IH [] None r c s2 Hc E). destruct (lex [] None s2); simpl; [|reflexivity]. rewrite app_assoc. reflexivity. }
    destruct (Ascii.eqb x "(").
    { destruct (lex [] None s) as [r|] eqn:E; [|discriminate]. injection H as <-.
      rewrite (IH [] None r c s2 Hc E). destruct (lex [] None s2); simpl; [|reflexivity].
      rewrite <- app_assoc. reflexivity. }
    destruct (Ascii.eqb x ")").
    { destruct (lex [] None s) as [r|] eqn:E; [|discriminate]. injection H as <-.
      rewrite (IH [] None r c s2 Hc E). destruct (lex [] None s2); simpl; [|reflexivity].
      rewrite <- app_assoc. reflexivity. }
    apply IH; assumption.
Qed.

Lemma lex_app_rp s : forall cur q t1 s2,
  lex cur q s = Some t1 ->
  lex cur q (s ++ ")"%char :: s2) = option_map (fun r => t1 ++ TRP :: r) (lex [] None s2).
Proof.
  induction s as [|x s IH]; intros cur q t1 s2 H; simpl in *.
  - destruct q; [discriminate|]. injection H as <-. reflexivity.
  - destruct q as [qc|]; [apply IH; assumption|].
    destruct (is_quote x); [apply IH; assumption|].
    destruct (is_space x).
    { destruct (lex [] None s) as [r|] eqn:E; [|discriminate]. injection H as <-.
      rewrite (IH [] None r s2 E). destruct (lex [] None s2); simpl; [|reflexivity]. rewrite app_assoc. reflexivity. }
    destruct (Ascii.eqb x "(").
    { destruct (lex [] None s) as [r|] eqn:E; [|discriminate]. injection H as <-.
      rewrite (IH [] None r s2 E). destruct (lex [] None s2); simpl; [|reflexivity].
      rewrite <- app_assoc. reflexivity. }
    destruct (Ascii.eqb x ")").
    { destruct (lex [] None s) as [r|] eqn:E; [|discriminate]. injection H as <-.
      rewrite (IH [] None r s2 E). destruct (lex [] None s2); simpl; [|reflexivity].
      rewrite <- app_assoc. reflexivity. }
    apply IH; assumption.
Qed.

Lemma lex_paren s ts : lex [] None s = Some ts ->
  lex [] None (to_chars "(" ++ s ++ to_chars ")") = Some (TLP :: ts ++ [TRP]).
Proof.
  intros H. change (to_chars "(" ++ s ++ to_chars ")") with ("("%char :: (s ++ ")"%char :: [])).
  cbn [lex is_quote is_space existsb]. 
  change (is_quote "(") with false. change (is_space "(") with false. cbn [Ascii.eqb].
  rewrite (lex_app_rp s [] None ts [] H). reflexivity.
Qed.

Lemma lex_and s1 s2 t1 t2 (a : chars) : (a = to_chars " AND " \/ a = to_chars " and ") ->
  lex [] None s1 = Some t1 -> lex [] None s2 = Some t2 ->
  lex [] None (s1 ++ a ++ s2) = Some (t1 ++ TAnd :: t2).
Proof.
  intros Ha H1 H2.
  assert (G : exists b, a = " "%char :: b ++ [" "%char] /\ lex [] None b = Some [TAnd]).
  { destruct Ha as [->| ->]; [exists (to_chars "AND")|exists (to_chars "and")]; split; vm_compute; reflexivity. }
  destruct G as (b & -> & Hb).
  change (s1 ++ (" "%char :: b ++ [" "%char]) ++ s2) with (s1 ++ " "%char :: ((b ++ [" "%char]) ++ s2)).
  rewrite (lex_app_space s1 [] None t1 " " _ eq_refl H1).
  rewrite <- app_assoc. cbn [app].
  rewrite (lex_app_space b [] None [TAnd] " " _ eq_refl Hb), H2. reflexivity.
Qed.

(** *** Parsing *)
Definition ends_atom (r : list tok) : Prop :=
  match r with [] => True | TRP :: _ | TAnd :: _ | TOr :: _ => True | _ => False end.
Definition ends_conj (r : list tok) : Prop :=
  match r with [] => True | TRP :: _ | TOr :: _ => True | _ => False end.
Definition ends_expr (r : list tok) : Prop := match r with [] => True | TRP :: _ => True | _ => False end.

Lemma p_atom_stop rest : ends_atom rest -> p_atom 0 rest = Some ([], rest).
Proof. destruct rest as [|[| | | | |] r]; simpl; try tauto. Qed.

Lemma p_atom_ext ts : forall d a r rest, p_atom d ts = Some (a, r) ->
  (r = [] -> ends_atom rest) -> p_atom d (ts ++ rest) = Some (a, r ++ rest).
Proof.
  induction ts as [|t ts IH]; intros d a r rest H Hr.
  - destruct d; [|discriminate]. injection H as <- <-. apply p_atom_stop. auto.
  - cbn [p_atom app] in *.
    destruct d as [|d]; destruct t as [w| | | | |];
    try (match type of H with option_map _ (p_atom ?x ts) = _ =>
       destruct (p_atom x ts) as [[a' r']|] eqn:E; [|discriminate]; simpl in H; injection H as <- <-;
       rewrite (IH _ _ _ _ E Hr); reflexivity end);
    injection H as <- <-; reflexivity.
Qed.

Lemma p_ext f :
  (forall ts e r rest, p_expr f ts = Some (e, r) -> (r = [] -> ends_expr rest) ->
     p_expr f (ts ++ rest) = Some (e, r ++ rest)) /\
  (forall ts e r rest, p_conj f ts = Some (e, r) -> (r = [] -> ends_conj rest) ->
     p_conj f (ts ++ rest) = Some (e, r ++ rest)) /\
  (forall ts e r rest, p_unary f ts = Some (e, r) -> (r = [] -> ends_atom rest) ->
     p_unary f (ts ++ rest) = Some (e, r ++ rest)).
Proof.
  assert (Hec : forall r, ends_expr r -> ends_conj r) by (intros [|[] ?]; simpl; tauto).
  assert (Hca : forall r, ends_conj r -> ends_atom r) by (intros [|[] ?]; simpl; tauto).
  induction f as [|f (IHe & IHc & IHu)]; [repeat split; discriminate|].
  repeat split.
  - intros ts e r rest H Hr. cbn [p_expr] in *.
    destruct (p_conj f ts) as [[e1 r1]|] eqn:E; [|discriminate].
    destruct r1 as [|t1 r1].
    { injection H as <- <-. rewrite (IHc _ _ _ rest E) by auto.
      specialize (Hr eq_refl). destruct rest as [|[] rest]; simpl in *; tauto || reflexivity. }
    rewrite (IHc _ _ _ rest E) by discriminate. cbn [app].
    destruct t1; try (injection H as <- <-; reflexivity).
    destruct (p_expr f r1) as [[e2 r2]|] eqn:E2; [|discriminate]. simpl in H. injection H as <- <-.
    rewrite (IHe _ _ _ rest E2) by exact Hr. reflexivity.
  - intros ts e r rest H Hr. cbn [p_conj] in *.
    destruct (p_unary f ts) as [[e1 r1]|] eqn:E; [|discriminate].
    destruct r1 as [|t1 r1].
    { injection H as <- <-. rewrite (IHu _ _ _ rest E) by auto.
      specialize (Hr eq_refl). destruct rest as [|[] rest]; simpl in *; tauto || reflexivity. }
    rewrite (IHu _ _ _ rest E) by discriminate. cbn [app].
    destruct t1; try (injection H as <- <-; reflexivity).
    destruct (p_conj f r1) as [[e2 r2]|] eqn:E2; [|discriminate]. simpl in H. injection H as <- <-.
    rewrite (IHc _ _ _ rest E2) by exact Hr. reflexivity.
  - intros ts e r rest H Hr. cbn [p_unary] in *.
    destruct ts as [|t ts]; [discriminate|]. cbn [app].
    destruct t; try discriminate.
    + destruct (p_atom 0 ts) as [[a r']|] eqn:E; [|discriminate]. simpl in H. injection H as <- <-.
      rewrite (p_atom_ext _ _ _ _ rest E) by exact Hr. reflexivity.
    + destruct (p_expr f ts) as [[e1 r1]|] eqn:E; [|discriminate].
      destruct r1 as [|t1 r1]; [discriminate|]. rewrite (IHe _ _ _ rest E) by discriminate.
      destruct t1; try discriminate. injection H as <- <-. reflexivity.
    + destruct (p_unary f ts) as [[e1 r1]|] eqn:E; [|discriminate]. simpl in H. injection H as <- <-.
      rewrite (IHu _ _ _ rest E) by exact Hr. reflexivity.
Qed.

Lemma p_mono f :
  (forall ts x, p_expr f ts = Some x -> p_expr (S f) ts = Some x) /\
  (forall ts x, p_conj f ts = Some x -> p_conj (S f) ts = Some x) /\
  (forall ts x, p_unary f ts = Some x -> p_unary (S f) ts = Some x).
Proof.
  induction f as [|f (IHe & IHc & IHu)]; [repeat split; discriminate|].
  repeat split; intros ts x H.
  - cbn [p_expr] in H. change (p_expr (S (S f)) ts) with
      (match p_conj (S f) ts with Some (e, TOr :: r) => option_map (fun x => (BOr e (fst x), snd x)) (p_expr (S f) r) | x => x end).
    destruct (p_conj f ts) as [[e r]|] eqn:E; [|discriminate]. rewrite (IHc _ _ E).
    destruct r as [|t r]; [exact H|]. destruct t; try exact H.
    destruct (p_expr f r) as [y|] eqn:E2; [|discriminate]. rewrite (IHe _ _ E2). exact H.
  - cbn [p_conj] in H. change (p_conj (S (S f)) ts) with
      (match p_unary (S f) ts with Some (e, TAnd :: r) => option_map (fun x => (BAnd e (fst x), snd x)) (p_conj (S f) r) | x => x end).
    destruct (p_unary f ts) as [[e r]|] eqn:E; [|discriminate]. rewrite (IHu _ _ E).
    destruct r as [|t r]; [exact H|]. destruct t; try exact H.
    destruct (p_conj f r) as [y|] eqn:E2; [|discriminate]. rewrite (IHc _ _ E2). exact H.
  - destruct ts as [|t r]; [discriminate|]. cbn [p_unary] in H. 
    destruct t; try discriminate.
    + exact H.
    + change (p_unary (S (S f)) (TLP :: r)) with
       (match p_expr (S f) r with Some (e, TRP :: r2) => Some (e, r2) | _ => None end).
      destruct (p_expr f r) as [y|] eqn:E2; [|discriminate]. rewrite (IHe _ _ E2). exact H.
    + change (p_unary (S (S f)) (TNot :: r)) with
       (option_map (fun x => (BNot (fst x), snd x)) (p_unary (S f) r)).
      destruct (p_unary f r) as [y|] eqn:E2; [|discriminate]. rewrite (IHu _ _ E2). exact H.
Qed.

Lemma p_expr_le f g ts x : f <= g -> p_expr f ts = Some x -> p_expr g ts = Some x.
Proof. induction 1; auto. intros H'. apply p_mono; auto. Qed.
Lemma p_conj_le f g ts x : f <= g -> p_conj f ts = Some x -> p_conj g ts = Some x.
Proof. induction 1; auto. intros H'. apply p_mono; auto. Qed.
Lemma p_unary_le f g ts x : f <= g -> p_unary f ts = Some x -> p_unary g ts = Some x.
Proof. induction 1; auto. intros H'. apply p_mono; auto. Qed.

(** A text has at most one reading. *)
Lemma reads_as_unique s e1 e2 : reads_as s e1 -> reads_as s e2 -> e1 = e2.
Proof.
  intros (t1 & f1 & L1 & P1) (t2 & f2 & L2 & P2). rewrite L1 in L2. injection L2 as <-.
  apply (p_expr_le f1 (f1 + f2)) in P1; [|lia]. apply (p_expr_le f2 (f1 + f2)) in P2; [|lia]. congruence.
Qed.

(** Without OR, an expression is a conjunction. *)
Lemma p_atom_suffix ts : forall d a r, p_atom d ts = Some (a, r) -> exists p, ts = p ++ r.
Proof.
  induction ts as [|t ts IH]; intros d a r H.
  - destruct d; [|discriminate]. injection H as _ <-. exists []; reflexivity.
  - cbn [p_atom] in H.
    destruct d as [|d]; destruct t as [w| | | | |];
    try (match type of H with option_map _ (p_atom ?x ts) = _ =>
       destruct (p_atom x ts) as [[a' r']|] eqn:E; [|discriminate]; simpl in H; injection H as _ <-;
       destruct (IH _ _ _ E) as [p ->]; eexists (_ :: p); reflexivity end);
    injection H as _ <-; exists []; reflexivity.
Qed.
Lemma p_suffix f :
  (forall ts e r, p_expr f ts = Some (e, r) -> exists p, ts = p ++ r) /\
  (forall ts e r, p_conj f ts = Some (e, r) -> exists p, ts = p ++ r) /\
  (forall ts e r, p_unary f ts = Some (e, r) -> exists p, ts = p ++ r).
Proof.
  induction f as [|f (IHe & IHc & IHu)]; [repeat split; discriminate|].
  repeat split; intros ts e r H.
  - cbn [p_expr] in H. destruct (p_conj f ts) as [[e1 r1]|] eqn:E; [|discriminate].
    destruct (IHc _ _ _ E) as [p ->].
    destruct r1 as [|t r1]; [injection H as _ <-; eauto|].
    destruct t; try (injection H as _ <-; eauto).
    destruct (p_expr f r1) as [[e2 r2]|] eqn:E2; [|discriminate]. simpl in H. injection H as _ <-.
    destruct (IHe _ _ _ E2) as [p2 ->]. exists (p ++ TOr :: p2). rewrite <- app_assoc. reflexivity.
  - cbn [p_conj] in H. destruct (p_unary f ts) as [[e1 r1]|] eqn:E; [|discriminate].
    destruct (IHu _ _ _ E) as [p ->].
    destruct r1 as [|t r1]; [injection H as _ <-; eauto|].
    destruct t; try (injection H as _ <-; eauto).
    destruct (p_conj f r1) as [[e2 r2]|] eqn:E2; [|discriminate]. simpl in H. injection H as _ <-.
    destruct (IHc _ _ _ E2) as [p2 ->]. exists (p ++ TAnd :: p2). rewrite <- app_assoc. reflexivity.
  - cbn [p_unary] in H. destruct ts as [|t ts]; [discriminate|]. destruct t; try discriminate.
    + destruct (p_atom 0 ts) as [[a r']|] eqn:E; [|discriminate]. simpl in H. injection H as _ <-.
      destruct (p_atom_suffix _ _ _ _ E) as [p ->]. exists (TWord w :: p). reflexivity.
    + destruct (p_expr f ts) as [[e1 r1]|] eqn:E; [|discriminate].
      destruct (IHe _ _ _ E) as [p ->]. destruct r1 as [|t1 r1]; [discriminate|]. destruct t1; try discriminate.
      injection H as _ <-. exists (TLP :: p ++ [TRP]). simpl. rewrite <- app_assoc. reflexivity.
    + destruct (p_unary f ts) as [[e1 r1]|] eqn:E; [|discriminate]. simpl in H. injection H as _ <-.
      destruct (IHu _ _ _ E) as [p ->]. exists (TNot :: p). reflexivity.
Qed.

Lemma expr_no_or f ts e : p_expr f ts = Some (e, []) -> ~ In TOr ts -> exists g, p_conj g ts = Some (e, []).
Proof.
  destruct f as [|f]; [discriminate|]. cbn [p_expr]. intros H Hno.
  destruct (p_conj f ts) as [[e1 r1]|] eqn:E; [|discriminate].
  destruct (proj1 (proj2 (p_suffix f)) _ _ _ E) as [p ->].
  destruct r1 as [|t r1]; [injection H as <-; eauto|].
  destruct t; try discriminate. exfalso. apply Hno. apply in_app_iff. right. left. reflexivity.
Qed.

Lemma paren_conj f ts e : p_expr f ts = Some (e, []) -> p_conj (S (S f)) (TLP :: ts ++ [TRP]) = Some (e, []).
Proof.
  intros H. destruct (p_ext f) as (He & _ & _).
  cbn [p_conj p_unary]. rewrite (He _ _ _ [TRP] H) by (intros _; exact I). reflexivity.
Qed.

Lemma conj_app : forall f1 ts1 e1 f2 ts2 e2,
  p_conj f1 ts1 = Some (e1, []) -> p_conj f2 ts2 = Some (e2, []) ->
  exists f e, p_conj f (ts1 ++ TAnd :: ts2) = Some (e, []) /\
    forall v, eval v e = and3 (eval v e1) (eval v e2).
Proof.
  assert (Hassoc : forall a b c, and3 a (and3 b c) = and3 (and3 a b) c).
  { intros [[]|] [[]|] [[]|]; reflexivity. }
  induction f1 as [|f1 IH]; intros ts1 e1 f2 ts2 e2 H1 H2; [discriminate|].
  cbn [p_conj] in H1. destruct (p_unary f1 ts1) as [[e r]|] eqn:E; [|discriminate].
  destruct (p_ext f1) as (_ & _ & Hu).
  destruct r as [|t r].
  - injection H1 as <-. exists (S (f1 + f2)), (BAnd e e2). split; [|reflexivity].
    cbn [p_conj]. pose proof (Hu _ _ _ (TAnd :: ts2) E (fun _ => I)) as Hx. simpl in Hx.
    rewrite (p_unary_le f1 (f1 + f2) _ _ ltac:(lia) Hx).
    rewrite (p_conj_le f2 (f1 + f2) _ _ ltac:(lia) H2). reflexivity.
  - destruct t; try discriminate.
    destruct (p_conj f1 r) as [[e' r']|] eqn:E2; [|discriminate]. simpl in H1. injection H1 as <- ->.
    destruct (IH _ _ _ _ _ E2 H2) as (f & e3 & E3 & Hev).
    exists (S (f1 + f)), (BAnd e e3). split; [|intros v; simpl; rewrite Hev; apply Hassoc].
    cbn [p_conj]. pose proof (Hu _ _ _ (TAnd :: ts2) E ltac:(discriminate)) as Hx. simpl in Hx.
    rewrite (p_unary_le f1 (f1 + f) _ _ ltac:(lia) Hx).
    rewrite (p_conj_le f (f1 + f) _ _ ltac:(lia) E3). reflexivity.
Qed.

(** A text that reads as a conjunction (no OR at top level). *)
Definition reads_conj (s : chars) (e : bexp) : Prop :=
  exists ts f, lex [] None s = Some ts /\ p_conj f ts = Some (e, []).

Lemma reads_conj_as s e : reads_conj s e -> reads_as s e.
Proof. intros (ts & f & H1 & H2). exists ts, (S f). split; [exact H1|]. cbn [p_expr]. rewrite H2. reflexivity. Qed.

Lemma join_conj sep ss es : sep = to_chars " AND " \/ sep = to_chars " and " ->
  Forall2 reads_conj ss es -> ss <> [] ->
  exists e, reads_conj (join_chars sep ss) e /\ forall v, eval v e = all3 (map (eval v) es).
Proof.
  intros Hsep HF. induction HF as [|s e ss es Hs HF IH]; intros Hne; [congruence|].
  destruct ss as [|s' ss].
  - inversion HF; subst. exists e. split; [exact Hs|]. intros v. simpl. destruct (eval v e) as [[]|]; reflexivity.
  - destruct IH as (e2 & (ts2 & f2 & L2 & P2) & Hv); [discriminate|].
    destruct Hs as (ts1 & f1 & L1 & P1).
    destruct (conj_app _ _ _ _ _ _ P1 P2) as (f & e3 & P3 & Hv3).
    exists e3. split; [|intros v; rewrite Hv3, Hv; reflexivity].
    exists (ts1 ++ TAnd :: ts2), f. split; [|exact P3].
    change (join_chars sep (s :: s' :: ss)) with (s ++ sep ++ join_chars sep (s' :: ss)).
    apply lex_and; auto.
Qed.

(** *** Sorting *)
Lemma insert_perm x l : Permutation (insert x l) (x :: l).
Proof.
  induction l as [|y l IH]; simpl; [reflexivity|]. destruct (chars_leb x y); [reflexivity|].
  rewrite IH. apply perm_swap.
Qed.
Lemma sorted_perm l : Permutation (sorted l) l.
Proof. induction l as [|x l IH]; simpl; [reflexivity|]. rewrite insert_perm, IH. reflexivity. Qed.

Lemma all3_perm l1 l2 : Permutation l1 l2 -> all3 l1 = all3 l2.
Proof.
  induction 1; simpl; auto; try congruence.
  destruct x as [[]|], y as [[]|], (all3 l) as [[]|]; reflexivity.
Qed.

Lemma Forall2_perm {A B} (R : A -> B -> Prop) l1 l1' l2 :
  Permutation l1 l1' -> Forall2 R l1 l2 -> exists l2', Permutation l2 l2' /\ Forall2 R l1' l2'.
Proof.
  intros HP. revert l2. induction HP as [|x l l' HP IH|x y l|l l' l'' HP1 IH1 HP2 IH2]; intros l2 HF.
  - inversion HF; subst. exists []. auto.
  - inversion HF as [|? b ? l2' Hb HF']; subst. destruct (IH _ HF') as (l3 & HP3 & HF3).
    exists (b :: l3). split; [apply perm_skip; exact HP3|constructor; assumption].
  - inversion HF as [|? b ? l2' Hb HF']; subst. inversion HF' as [|? c ? l3 Hc HF'']; subst.
    exists (c :: b :: l3). split; [apply perm_swap|]. repeat constructor; assumption.
  - destruct (IH1 _ HF) as (l3 & HP3 & HF3). destruct (IH2 _ HF3) as (l4 & HP4 & HF4).
    exists l4. split; [eapply Permutation_trans; eassumption|exact HF4].
Qed.

(** *** The theorems *)
Definition or_visible (cond : chars) : Prop :=
  forall ts, lex [] None cond = Some ts -> In TOr ts -> contains (to_chars " OR ") (upper cond) = true.

Lemma filter_str_reads cond e :
  cond <> [] -> reads_as (replace_eqeq cond) e -> or_visible (replace_eqeq cond) ->
  reads_conj (filter_str cond) e.
Proof.
  intros Hne (ts & f & L & P) Hv. unfold filter_str.
  destruct (replace_eqeq cond) as [|c r] eqn:E.
  { simpl in L. injection L as <-. destruct f as [|[|[|]]]; discriminate. }
  rewrite <- E in *. clear E c r.
  destruct (contains (to_chars " OR ") (upper (replace_eqeq cond))) eqn:Ec.
  - exists (TLP :: ts ++ [TRP]), (S (S f)). split; [apply lex_paren; exact L|apply paren_conj; exact P].
  - destruct (expr_no_or f ts e P) as (g & Hg).
    + intros Hin. rewrite (Hv _ L Hin) in Ec. discriminate.
    + exists ts, g. auto.
Qed.

Lemma filters_str_conj conds es :
  conds <> [] ->
  Forall2 (fun c e => c <> [] /\ reads_as (replace_eqeq c) e /\ or_visible (replace_eqeq c)) conds es ->
  exists e, reads_as (filters_str conds) e /\ forall v, eval v e = all3 (map (eval v) es).
Proof.
  intros Hne HF. unfold filters_str.
  assert (HF' : Forall2 reads_conj (map filter_str conds) es).
  { clear Hne. induction HF as [|c e cs es (H1 & H2 & H3) _ IH]; simpl; constructor; auto.
    apply filter_str_reads; assumption. }
  destruct (Forall2_perm _ _ _ _ (Permutation_sym (sorted_perm (map filter_str conds))) HF')
    as (es' & HP & HF'').
  destruct (join_conj (to_chars " AND ") _ _ (or_introl eq_refl) HF'') as (e & Hr & Hv).
  - intros E. pose proof (sorted_perm (map filter_str conds)) as HPp. rewrite E in HPp.
    apply Permutation_nil in HPp. destruct conds; [congruence|discriminate].
  - exists e. split; [apply reads_conj_as; exact Hr|]. intros v. rewrite Hv. apply all3_perm.
    apply Permutation_map. symmetry. exact HP.
Qed.

Lemma metric_where_conj ws es :
  ws <> [] -> Forall2 reads_as ws es ->
  exists e, reads_as (metric_where ws) e /\ forall v, eval v e = all3 (map (eval v) es).
Proof.
  intros Hne HF. destruct ws as [|w1 ws]; [congruence|]. destruct ws as [|w2 ws].
  - inversion HF as [|? e1 ? ? He1 HF']; subst. inversion HF'; subst. exists e1.
    split; [exact He1|]. intros v. simpl. destruct (eval v e1) as [[]|]; reflexivity.
  - remember (w1 :: w2 :: ws) as l eqn:El.
    destruct (Forall2_perm _ _ _ _ (Permutation_sym (sorted_perm l)) HF) as (es' & HP & HF').
    assert (HF2 : Forall2 reads_conj (map (fun w => to_chars "(" ++ w ++ to_chars ")") (sorted l)) es').
    { clear - HF'. induction HF' as [|w e wl el (ts & f & L & P) _ IH]; simpl; constructor; auto.
      exists (TLP :: ts ++ [TRP]), (S (S f)). split; [apply lex_paren; exact L|apply paren_conj; exact P]. }
    destruct (join_conj (to_chars " and ") _ _ (or_intror eq_refl) HF2) as (e & Hr & Hv).
    + intros E. apply map_eq_nil in E. pose proof (sorted_perm l) as HPp. rewrite E in HPp.
      apply Permutation_nil in HPp. congruence.
    + exists e. split.
      * subst l. unfold metric_where. apply reads_conj_as. exact Hr.
      * intros v. rewrite Hv. apply all3_perm. apply Permutation_map. symmetry. exact HP.
Qed.

(** *** The text does not depend on the order in which filters were added *)
Lemma leb_trans_string s1 : forall s2 s3,
  String.leb s1 s2 = true -> String.leb s2 s3 = true -> String.leb s1 s3 = true.
Proof.
  induction s1 as [|a s1 IH]; intros s2 s3; [destruct s3; reflexivity|].
  destruct s2 as [|b s2]; [discriminate|]. destruct s3 as [|c s3]; [intros _ H; discriminate|].
  unfold String.leb in *. cbn [String.compare].
  unfold Ascii.compare.
  destruct (N.compare_spec (N_of_ascii a) (N_of_ascii b)) as [Hab|Hab|Hab];
  destruct (N.compare_spec (N_of_ascii b) (N_of_ascii c)) as [Hbc|Hbc|Hbc];
  destruct (N.compare_spec (N_of_ascii a) (N_of_ascii c)) as [Hac|Hac|Hac];
  try lia; try discriminate; try reflexivity.
  intros H1 H2. eapply IH; eassumption.
Qed.

Lemma chars_leb_trans a b c : chars_leb a b = true -> chars_leb b c = true -> chars_leb a c = true.
Proof. apply leb_trans_string. Qed.
Lemma chars_leb_total a b : chars_leb a b = true \/ chars_leb b a = true.
Proof. apply String.leb_total. Qed.
Lemma chars_leb_antisym a b : chars_leb a b = true -> chars_leb b a = true -> a = b.
Proof.
  intros H1 H2. apply (String.leb_antisym _ _ H1) in H2. rewrite <- (to_of_chars a), <- (to_of_chars b), H2. reflexivity.
Qed.

Lemma insert_comm x y l : insert x (insert y l) = insert y (insert x l).
Proof.
  assert (Hrev : forall a b, chars_leb a b = false -> chars_leb b a = true).
  { intros a b H. destruct (chars_leb_total a b); congruence. }
  induction l as [|z l IH].
  - simpl. destruct (chars_leb x y) eqn:Exy, (chars_leb y x) eqn:Eyx; auto.
    + rewrite (chars_leb_antisym _ _ Exy Eyx). reflexivity.
    + apply Hrev in Exy. congruence.
  - simpl. destruct (chars_leb y z) eqn:Eyz, (chars_leb x z) eqn:Exz; simpl.
    + rewrite Eyz, Exz. destruct (chars_leb x y) eqn:Exy, (chars_leb y x) eqn:Eyx; auto.
      * rewrite (chars_leb_antisym _ _ Exy Eyx). reflexivity.
      * apply Hrev in Exy. congruence.
    + rewrite Exz, Eyz. destruct (chars_leb x y) eqn:Exy; [|reflexivity].
      rewrite (chars_leb_trans _ _ _ Exy Eyz) in Exz. discriminate.
    + rewrite Exz, Eyz. destruct (chars_leb y x) eqn:Eyx; [|reflexivity].
      rewrite (chars_leb_trans _ _ _ Eyx Exz) in Eyz. discriminate.
    + rewrite Exz, Eyz, IH. reflexivity.
Qed.

Lemma sorted_perm_eq l1 l2 : Permutation l1 l2 -> sorted l1 = sorted l2.
Proof.
  induction 1 as [|x l l' _ IH|x y l|l l' l'' _ IH1 _ IH2]; simpl; try congruence. apply insert_comm.
Qed.

Lemma metric_where_order ws ws' : Permutation ws ws' -> metric_where ws = metric_where ws'.
Proof.
  intros HP. pose proof (sorted_perm_eq _ _ HP) as Hs. pose proof (Permutation_length HP) as Hl.
  destruct ws as [|w1 [|w2 ws]], ws' as [|w1' [|w2' ws']]; try discriminate; try reflexivity.
  - apply Permutation_length_1 in HP. congruence.
  - unfold metric_where. rewrite Hs. reflexivity.
Qed.

Lemma filters_str_order fs fs' : Permutation fs fs' -> filters_str fs = filters_str fs'.
Proof. intros HP. unfold filters_str. rewrite (sorted_perm_eq _ _ (Permutation_map filter_str HP)). reflexivity. Qed.

(** *** Filters with repeated or empty members *)
Lemma all3_false l : all3 l = Some false <-> In (Some false) l.
Proof.
  induction l as [|a l IH]; simpl; [split; [discriminate|tauto]|].
  split.
  - destruct a as [[]|]; [|auto|]; destruct (all3 l) as [[]|]; try discriminate; intros _; right; apply IH; reflexivity.
  - intros [->|H]; [reflexivity|]. apply IH in H. rewrite H. destruct a as [[]|]; reflexivity.
Qed.
Lemma all3_true l : all3 l = Some true <-> forall x, In x l -> x = Some true.
Proof.
  induction l as [|a l IH]; simpl; [split; [tauto|reflexivity]|].
  split.
  - destruct a as [[]|]; destruct (all3 l) as [[]|]; try discriminate. intros _ x [<-|Hx]; [reflexivity|].
    apply IH; [reflexivity|exact Hx].
  - intros H. rewrite (H a) by auto. assert (all3 l = Some true) as -> by (apply IH; auto). reflexivity.
Qed.
Lemma all3_set l1 l2 : (forall x, In x l1 <-> In x l2) -> all3 l1 = all3 l2.
Proof.
  intros H.
  assert (Ht : all3 l1 = Some true <-> all3 l2 = Some true).
  { rewrite !all3_true. split; intros G x Hx; apply G; apply H; exact Hx. }
  assert (Hf : all3 l1 = Some false <-> all3 l2 = Some false).
  { rewrite !all3_false. apply H. }
  destruct (all3 l1) as [[]|], (all3 l2) as [[]|]; try reflexivity;
    try (destruct Ht as [Ht1 Ht2]; discriminate (Ht1 eq_refl) || discriminate (Ht2 eq_refl));
    try (destruct Hf as [Hf1 Hf2]; discriminate (Hf1 eq_refl) || discriminate (Hf2 eq_refl)).
Qed.

Lemma chars_eqb_eq a b : chars_eqb a b = true <-> a = b.
Proof.
  unfold chars_eqb. rewrite String.eqb_eq. split; intros H; [|congruence].
  rewrite <- (to_of_chars a), <- (to_of_chars b), H. reflexivity.
Qed.

Lemma filters_add_In fs f x : In x (filters_add fs f) <-> In x fs \/ (x = f /\ f <> []).
Proof.
  unfold filters_add. destruct f as [|c f].
  - split; [auto|]. intros [H|[_ H]]; [exact H|congruence].
  - destruct (existsb (chars_eqb (c :: f)) fs) eqn:E.
    + split; [auto|]. intros [H|[-> _]]; [exact H|]. apply existsb_exists in E as (y & Hy & Ey).
      apply chars_eqb_eq in Ey. subst y. exact Hy.
    + rewrite in_app_iff. simpl. split.
      * intros [H|[<-|[]]]; [auto|]. right. split; [reflexivity|discriminate].
      * intros [H|[-> _]]; auto.
Qed.

Lemma filters_of_In l x : In x (filters_of l) <-> In x l /\ x <> [].
Proof.
  unfold filters_of.
  assert (G : forall acc, In x (fold_left filters_add l acc) <-> In x acc \/ (In x l /\ x <> [])).
  { induction l as [|a l IH]; intros acc; simpl; [tauto|].
    rewrite IH, filters_add_In. split.
    - intros [[H|[-> H]]|[H1 H2]]; auto.
    - intros [H|[[->|H1] H2]]; auto. }
  rewrite G. simpl. tauto.
Qed.

Lemma filters_of_conj conds (rd : chars -> bexp) :
  (exists c, In c conds /\ c <> []) ->
  (forall c, In c conds -> c <> [] ->
     reads_as (replace_eqeq c) (rd c) /\ or_visible (replace_eqeq c)) ->
  exists e, reads_as (filters_str (filters_of conds)) e /\
    forall v, eval v e = all3 (map (fun c => eval v (rd c)) (filter (fun c => negb (chars_eqb c [])) conds)).
Proof.
  intros (c0 & Hc0 & Hn0) H.
  destruct (filters_str_conj (filters_of conds) (map rd (filters_of conds))) as (e & Hr & Hv).
  - intros E. assert (Hin : In c0 (filters_of conds)) by (apply filters_of_In; auto). rewrite E in Hin. exact Hin.
  - assert (G : forall l, incl l (filters_of conds) -> Forall2 (fun c e =>
       c <> [] /\ reads_as (replace_eqeq c) e /\ or_visible (replace_eqeq c)) l (map rd l)).
    { induction l as [|c l IH]; intros Hl; simpl; constructor.
      - assert (Hc : In c (filters_of conds)) by (apply Hl; left; reflexivity).
        apply filters_of_In in Hc as [Hc Hn]. destruct (H c Hc Hn). auto.
      - apply IH. intros x Hx. apply Hl. right. exact Hx. }
    apply G. apply incl_refl.
  - exists e. split; [exact Hr|]. intros v. rewrite Hv, map_map. apply all3_set. intros x.
    rewrite !in_map_iff. split; intros (c & Ec & Hc); exists c; (split; [exact Ec|]).
    + apply filters_of_In in Hc as [Hc Hn]. apply filter_In. split; [exact Hc|].
      apply negb_true_iff. destruct (chars_eqb c []) eqn:E; [|reflexivity]. apply chars_eqb_eq in E. contradiction.
    + apply filter_In in Hc as [Hc Hn]. apply filters_of_In. split; [exact Hc|]. intros ->. discriminate.
Qed.

(** *** Refutation witnesses *)
Definition nl_or : chars := to_chars "b OR" ++ ascii_of_nat 10 :: to_chars "c".
Definition word (s : string) : bexp := BAtom [TWord (to_chars s)].
Lemma C13_nl_or_witness :
  reads_as (replace_eqeq nl_or) (BOr (word "b") (word "c")) /\
  reads_as (filters_str (filters_of [to_chars "a"; nl_or])) (BOr (BAnd (word "a") (word "b")) (word "c")).
Proof.
  split; [exists [TWord (to_chars "b"); TOr; TWord (to_chars "c")], 10
         |exists [TWord (to_chars "a"); TAnd; TWord (to_chars "b"); TOr; TWord (to_chars "c")], 10];
  split; vm_compute; reflexivity.
Qed.

Lemma C13_refutation : exists conds (rd : chars -> bexp) e v,
  (forall c, In c conds -> c <> [] /\ reads_as (replace_eqeq c) (rd c)) /\
  reads_as (filters_str (filters_of conds)) e /\
  eval v e = Some true /\ all3 (map (fun c => eval v (rd c)) conds) = Some false.
Proof.
  destruct C13_nl_or_witness as [H1 H2].
  exists [to_chars "a"; nl_or],
    (fun c => if chars_eqb c nl_or then BOr (word "b") (word "c") else word "a"),
    (BOr (BAnd (word "a") (word "b")) (word "c")),
    (fun ws => match ws with [TWord w] => Some (chars_eqb w (to_chars "c")) | _ => None end).
  split; [|split; [exact H2|split; vm_compute; reflexivity]].
  intros c [<-|[<-|[]]].
  - split; [discriminate|]. exists [TWord (to_chars "a")], 10. split; vm_compute; reflexivity.
  - split; [discriminate|]. exact H1.
Qed.
Lemma C13_literal : exists cond w,
  lex [] None cond = Some [TWord (to_chars "s"); TWord (to_chars "=="); TWord w] /\
  lex [] None (filter_str cond) = Some [TWord (to_chars "s"); TWord (to_chars "="); TWord (to_chars "'a=b'")] /\
  w <> to_chars "'a=b'".
Proof.
  exists (to_chars "s == 'a==b'"), (to_chars "'a==b'").
  split; [vm_compute; reflexivity|]. split; [vm_compute; reflexivity|]. discriminate.
Qed.
