(** Lemmas for C37 and C38: names of the preaggregated columns, Poisson weights. *)
From Coq Require Import Reals List Bool String Ascii Arith Lia Lra Permutation.
From Verif Require Import M_Num M_Frame M_Ops M_Slices M_Leaf M_Jackknife M_SqlText M_SqlFilter M_Bootstrap S_Ops S_Slices S_Jackknife S_Bootstrap L_Frame L_Slices L_Jackknife L_Jackknife3 L_Bootstrap.
Import ListNotations.
Open Scope list_scope.
Open Scope nat_scope.

(** *** Names *)
Lemma of_to l : to_chars (of_chars l) = l.
Proof. unfold to_chars, of_chars. apply list_ascii_of_string_of_list_ascii. Qed.
Lemma to_of s : of_chars (to_chars s) = s.
Proof. unfold to_chars, of_chars. apply string_of_list_ascii_of_string. Qed.
Lemma lstrip_mid ch a c b : c <> ch -> lstrip ch (a ++ c :: b) = lstrip ch a ++ c :: b.
Proof.
  intros N. induction a as [|y a IH]; simpl.
  - destruct (Ascii.eqb_spec c ch); congruence.
  - destruct (Ascii.eqb y ch); auto.
Qed.
Lemma strip_mid ch c0 a c b : c0 <> ch -> c <> ch -> exists b', strip ch (c0 :: a ++ c :: b) = c0 :: a ++ c :: b'.
Proof.
  intros N0 N. unfold strip.
  assert (E : lstrip ch (c0 :: a ++ c :: b) = c0 :: a ++ c :: b) by (simpl; destruct (Ascii.eqb_spec c0 ch); congruence).
  rewrite E. replace (rev (c0 :: a ++ c :: b)) with (rev b ++ c :: rev (c0 :: a)).
  2:{ simpl. rewrite rev_app_distr. simpl. now rewrite <- !app_assoc. }
  rewrite lstrip_mid; auto. rewrite rev_app_distr. simpl rev at 1. rewrite rev_app_distr, rev_involutive. simpl.
  exists (rev (lstrip ch (rev b))). now rewrite <- app_assoc.
Qed.
Lemma escape_plain c : special c = false -> escape_char c = [c].
Proof. unfold escape_char. intros ->. reflexivity. Qed.
(** A column name with a character that is not special and not an underscore. *)
Definition has_letter (v : string) : Prop := exists c, In c (to_chars v) /\ special c = false /\ c <> underscore.
Lemma escaped_text k rest c : In c rest -> special c = false -> c <> underscore ->
  (exists body, flat_map escape_char (kind_text k ++ to_chars "(" ++ rest) = kind_text k ++ underscore :: body /\ In c body).
Proof.
  intros I S N. exists (flat_map escape_char rest). split.
  - rewrite !flat_map_app. destruct k; reflexivity.
  - apply in_flat_map. exists c. split; auto. rewrite escape_plain; auto. simpl; auto.
Qed.
Lemma colname_prefix l : has_letter (pvar l) -> exists rest, to_chars (colname l) = kind_text (pk l) ++ underscore :: rest.
Proof.
  intros [c [I [S N]]]. unfold colname, leaf_text.
  set (rest := to_chars (pvar l) ++ to_chars ")" ++ match pwhere l with [] => [] | w => to_chars " where " ++ metric_where (List.map to_chars w) end).
  assert (IR : In c rest) by (unfold rest; apply in_or_app; auto).
  destruct (escaped_text (pk l) rest c IR S N) as [body [E IB]].
  assert (SP : existsb special (kind_text (pk l) ++ to_chars "(" ++ rest) = true).
  { apply existsb_exists. exists "("%char. split; [|reflexivity]. apply in_or_app. right. simpl; auto. }
  set (text := kind_text (pk l) ++ to_chars "(" ++ rest) in *.
  assert (NE : exists a t, text = a :: t) by (unfold text; destruct (pk l); simpl; eauto).
  destruct NE as [a [t0 NE]].
  assert (EC : escape_chars text = let res := replace_uu (strip " " (strip underscore (flat_map escape_char text))) in
     match res with [] => None | c :: _ => if is_digit c then Some (to_chars "col_" ++ res) else Some res end).
  { unfold escape_chars. rewrite SP. rewrite NE. reflexivity. }
  apply in_split in IB. destruct IB as [b1 [b2 EB]].
  assert (KT : exists k0 kt, kind_text (pk l) = k0 :: kt /\ k0 <> underscore /\ k0 <> " "%char /\ is_digit k0 = false /\ Forall (fun y => y <> underscore) (k0 :: kt)).
  { destruct (pk l); simpl; eexists; eexists; (split; [reflexivity|]); repeat split; try discriminate; repeat constructor; discriminate. }
  destruct KT as [k0 [kt [KE [K1 [K2 [K3 K4]]]]]].
  assert (c <> " "%char) as NS by (intros ->; discriminate).
  rewrite EC, E, KE, EB.
  destruct (strip_mid underscore k0 (kt ++ underscore :: b1) c b2 K1 N) as [b3 E3].
  destruct (strip_mid " " k0 (kt ++ underscore :: b1) c b3 K2 NS) as [b4 E4].
  replace ((k0 :: kt) ++ underscore :: b1 ++ c :: b2) with (k0 :: (kt ++ underscore :: b1) ++ c :: b2) by (simpl; now rewrite <- app_assoc).
  rewrite E3, E4.
  assert (RU : exists r, replace_uu (k0 :: (kt ++ underscore :: b1) ++ c :: b4) = k0 :: kt ++ underscore :: r).
  { rewrite <- app_assoc. simpl app at 2. clear -K4. change (k0 :: kt ++ underscore :: b1 ++ c :: b4) with ((k0 :: kt) ++ underscore :: b1 ++ c :: b4).
    change (exists r, replace_uu ((k0 :: kt) ++ underscore :: b1 ++ c :: b4) = (k0 :: kt) ++ underscore :: r).
    induction K4 as [|y ys Hy _ IH].
    - simpl app. destruct (b1 ++ c :: b4) as [|d t'] eqn:D; simpl; eauto. destruct (Ascii.eqb d underscore); eauto.
    - destruct IH as [r IH]. exists r. cbn [app replace_uu]. destruct (Ascii.eqb_spec y underscore); [congruence|]. now rewrite IH. }
  destruct RU as [r RU]. rewrite RU. cbv beta iota zeta. rewrite K3. rewrite of_to. exists r. reflexivity.
Qed.
Lemma multiplied_colname l : has_letter (pvar l) ->
  multiplied (colname l) = match pk l with KSum | KCount => true | _ => false end.
Proof.
  intros H. destruct (colname_prefix l H) as [r E]. unfold multiplied. rewrite E. destruct (pk l); reflexivity.
Qed.

(** Column names that sanitizing leaves alone: no special character, no underscore at either end or
    next to another one. *)
Fixpoint tidy (l : chars) : bool :=
  match l with
  | [] => true
  | c :: t => negb (special c) && (if Ascii.eqb c underscore then match t with [] => false | d :: _ => negb (Ascii.eqb d underscore) end else true) && tidy t
  end.
Definition tidy_name (v : string) : bool := tidy (underscore :: to_chars v).
Lemma tidy_replace l : tidy l = true -> replace_uu l = l.
Proof.
  induction l as [|c l IH]; simpl; auto. rewrite !andb_true_iff. intros [[H1 H2] H3]. rewrite (IH H3).
  destruct (Ascii.eqb c underscore); auto. destruct l as [|d l]; [discriminate|]. destruct (Ascii.eqb d underscore); [discriminate|auto].
Qed.
Lemma tidy_last l c : tidy (l ++ [c]) = true -> c <> underscore.
Proof.
  induction l as [|d l IH]; simpl; rewrite !andb_true_iff.
  - intros [[_ H] _] ->. discriminate.
  - intros [_ H]. auto.
Qed.
Lemma tidy_escape l : tidy l = true -> flat_map escape_char l = l.
Proof. induction l as [|c l IH]; simpl; auto. rewrite !andb_true_iff, negb_true_iff. intros [[H1 H2] H3]. rewrite escape_plain, IH; auto. Qed.
Lemma strip_ends ch c0 l c : c0 <> ch -> c <> ch -> strip ch (c0 :: l ++ [c]) = c0 :: l ++ [c].
Proof.
  intros N0 N. unfold strip. assert (E : lstrip ch (c0 :: l ++ [c]) = c0 :: l ++ [c]) by (simpl; destruct (Ascii.eqb_spec c0 ch); congruence).
  rewrite E. change (c0 :: l ++ [c]) with ((c0 :: l) ++ [c]). rewrite rev_app_distr.
  assert (E2 : lstrip ch (rev [c] ++ rev (c0 :: l)) = rev [c] ++ rev (c0 :: l)) by (simpl; destruct (Ascii.eqb_spec c ch); congruence).
  rewrite E2. rewrite <- rev_app_distr, rev_involutive. reflexivity.
Qed.
Lemma tidy_colname k v : tidy_name v = true -> to_chars (colname (PLeaf k v [])) = kind_text k ++ underscore :: to_chars v.
Proof.
  intros T. unfold colname, leaf_text. simpl pk. simpl pvar. simpl pwhere. rewrite app_nil_r.
  set (text := kind_text k ++ to_chars "(" ++ to_chars v ++ to_chars ")").
  assert (SP : existsb special text = true).
  { apply existsb_exists. exists "("%char. split; [|reflexivity]. unfold text. apply in_or_app. right. simpl; auto. }
  assert (NE : exists a t, text = a :: t) by (unfold text; destruct k; simpl; eauto).
  destruct NE as [a [t0 NE]].
  assert (EC : escape_chars text = let res := replace_uu (strip " " (strip underscore (flat_map escape_char text))) in
     match res with [] => None | c :: _ => if is_digit c then Some (to_chars "col_" ++ res) else Some res end).
  { unfold escape_chars. rewrite SP. rewrite NE. reflexivity. }
  rewrite EC.
  assert (TV : tidy (to_chars v) = true) by (unfold tidy_name in T; simpl in T; apply andb_true_iff in T; tauto).
  assert (FE : flat_map escape_char text = kind_text k ++ underscore :: to_chars v).
  { unfold text. rewrite !flat_map_app. rewrite (tidy_escape (to_chars v)) by auto. rewrite app_nil_r. destruct k; reflexivity. }
  rewrite FE.
  assert (TK : tidy (kind_text k ++ underscore :: to_chars v) = true).
  { unfold tidy_name in T. destruct k; simpl kind_text; cbn [app]; cbn -[tidy underscore] in *; repeat (change (tidy (?a :: ?t)) with (tidy (a :: t)); cbn [tidy]); revert T; cbn [tidy]; intros T; rewrite T; reflexivity. }
  destruct (exists_last (l := to_chars v)) as [m [c Em]].
  { intros Z. unfold tidy_name in T. rewrite Z in T. discriminate. }
  rewrite Em in *.
  assert (NC : c <> underscore) by (apply tidy_last with (l := m); auto).
  assert (NS : c <> " "%char).
  { intros ->. clear -TV. induction m as [|d m IH]; simpl in *; [discriminate|]. apply andb_true_iff in TV. tauto. }
  assert (KT : exists k0 kt, kind_text k = k0 :: kt /\ k0 <> underscore /\ k0 <> " "%char /\ is_digit k0 = false).
  { destruct k; simpl; eexists; eexists; (split; [reflexivity|]); repeat split; discriminate. }
  destruct KT as [k0 [kt [KE [K1 [K2 K3]]]]]. rewrite KE in *.
  replace ((k0 :: kt) ++ underscore :: m ++ [c]) with (k0 :: (kt ++ underscore :: m) ++ [c]) in * by (simpl; now rewrite <- app_assoc).
  rewrite !strip_ends; auto. rewrite tidy_replace by auto. cbv beta iota zeta. rewrite K3. rewrite of_to. reflexivity.
Qed.
Lemma to_chars_inj a b : to_chars a = to_chars b -> a = b.
Proof. intros H. rewrite <- (to_of a), <- (to_of b). now rewrite H. Qed.
Lemma unfiltered_names ls : Forall (fun l => pwhere l = [] /\ tidy_name (pvar l) = true) ls -> distinct_names ls.
Proof.
  rewrite Forall_forall. intros H l l' Hl Hl' E. destruct l as [k v w], l' as [k' v' w'].
  destruct (H _ Hl) as [W T], (H _ Hl') as [W' T']. simpl in *. subst.
  assert (E2 : kind_text k ++ underscore :: to_chars v = kind_text k' ++ underscore :: to_chars v') by (rewrite <- !tidy_colname; auto; congruence).
  assert (k = k' /\ to_chars v = to_chars v') as [-> E3].
  { destruct k, k'; simpl in E2; try discriminate E2; split; auto; congruence. }
  split; auto. split; [now apply to_chars_inj|]. tauto.
Qed.
