(** Proofs of the C09 statements and refutation witnesses used in P_SqlNames. *)
From Coq Require Import List String Ascii Bool Arith NArith.
From Verif Require Import M_SqlText L_SqlText M_SqlColumns S_SqlNames L_SqlColumns.
Import ListNotations.
Local Open Scope string_scope.
Local Open Scope list_scope.

Definition ex_col (e a : string) : column := new_column e (Some a) true "".
Definition ex_heap (cs : list column) : heap := fun l => nth l cs (ex_col "dummy" "dummy").

Lemma l_C09_no_special_character : forall s a c,
  escape_alias s = Some a -> occurs c specials -> ~ occurs c a.
Proof.
  intros s a c H Hc Ha. unfold escape_alias in H.
  destruct (escape_chars (to_chars s)) as [b|] eqn:E; [|discriminate]. injection H as <-.
  apply escape_chars_no_special in E. unfold occurs in Ha. change list_ascii_of_string with to_chars in Ha.
  rewrite to_of_chars in Ha. pose proof (existsb_false_inv _ _ _ E Ha) as Hs.
  unfold special in Hs. assert (existsb (Ascii.eqb c) special_chars = true); [|congruence].
  apply existsb_exists. exists c. split; [exact Hc|apply Ascii.eqb_refl]. Qed.

Lemma l_C09_clean_unchanged : forall s,
  (forall c, occurs c s -> ~ occurs c specials) -> escape_alias s = Some s.
Proof.
  intros s H. unfold escape_alias. rewrite escape_chars_clean; [simpl; rewrite of_to_chars; reflexivity|].
  apply existsb_false. intros c Hc. specialize (H c Hc). unfold special.
  destruct (existsb (Ascii.eqb c) special_chars) eqn:E; [|reflexivity].
  apply existsb_exists in E as (d & Hd & Ed). apply Ascii.eqb_eq in Ed. subst d. contradiction. Qed.

Lemma l_C09_idempotent : forall s a, escape_alias s = Some a -> escape_alias a = Some a.
Proof.
  intros s a H. unfold escape_alias in *.
  destruct (escape_chars (to_chars s)) as [b|] eqn:E; [|discriminate]. injection H as <-.
  rewrite to_of_chars. erewrite escape_chars_idem by exact E. reflexivity. Qed.

Lemma l_C09_no_leading_digit : forall s c0 c a,
  occurs c0 s -> occurs c0 specials -> escape_alias s = Some (String c a) -> ~ occurs c digits.
Proof.
  intros s c0 c a Hs Hsp H Hd. unfold escape_alias in H.
  destruct (escape_chars (to_chars s)) as [b|] eqn:E; [|discriminate]. injection H as H.
  apply (f_equal to_chars) in H. rewrite to_of_chars in H. cbn in H. subst b.
  apply escape_chars_no_digit_head in E.
  - unfold occurs in Hd. cbn in Hd. decompose [or] Hd; subst; try discriminate. contradiction.
  - apply existsb_exists. exists c0. split; [exact Hs|]. unfold special. apply existsb_exists.
    exists c0. split; [exact Hsp|apply Ascii.eqb_refl]. Qed.

Lemma l_C09_raises_iff : forall s,
  escape_alias s = None <->
  (exists c, occurs c s /\ occurs c specials) /\ (forall c, occurs c s -> occurs c blanks).
Proof.
  intros s. unfold escape_alias.
  assert (Hn : option_map of_chars (escape_chars (to_chars s)) = None <-> escape_chars (to_chars s) = None).
  { destruct (escape_chars (to_chars s)); simpl; split; congruence. }
  rewrite Hn, escape_chars_none_iff, existsb_exists, forallb_forall.
  assert (Hb : forall c, Bool.eqb (wordless c) (existsb (Ascii.eqb c) (to_chars blanks)) = true).
  { intros c. apply (ascii_forall (fun c => Bool.eqb (wordless c) (existsb (Ascii.eqb c) (to_chars blanks)))).
    vm_compute. reflexivity. }
  split; intros [(c & H1 & H2) H3]; (split; [exists c; split; [exact H1|]|]).
  - apply existsb_exists in H2 as (d & Hd & E). apply Ascii.eqb_eq in E. subst d. exact Hd.
  - intros d Hd. specialize (H3 d Hd). specialize (Hb d). rewrite H3 in Hb.
    apply Bool.eqb_prop in Hb. symmetry in Hb. apply existsb_exists in Hb as (e & He & E).
    apply Ascii.eqb_eq in E. subst e. exact He.
  - apply existsb_exists. exists c. split; [exact H2|apply Ascii.eqb_refl].
  - intros d Hd. specialize (H3 d Hd). specialize (Hb d). apply Bool.eqb_prop in Hb. rewrite Hb.
    apply existsb_exists. exists d. split; [exact H3|apply Ascii.eqb_refl]. Qed.

Lemma l_C09_total_refuted : exists s, s <> "" /\ escape_alias s = None.
Proof. exists "((". split; [discriminate|vm_compute; reflexivity]. Qed.

Lemma l_C10_without_alias_refuted : exists h L' h',
  columns_add_all 10 h [] [0; 1] = Ok (h', L') /\
  map (fun l => c_expr (h' l)) L' = ["x"; "x"] /\
  map (fun l => col_alias (h' l)) L' = [Ok None; Ok (Some "None_1")].
Proof.
  exists (fun _ => new_column "x" None false "").
  eexists _, _. split; [reflexivity|]. split; vm_compute; reflexivity. Qed.

Lemma l_C11_alias_resolves_refuted :
  let h := ex_heap [ex_col "SUM(x)" "v"; ex_col "SUM(y)" "v"; ex_col "SUM(y)" "t"] in
  exists h' L', columns_add_all 10 h [] [0; 1; 2] = Ok (h', L') /\
    named h' 2 "v" /\ selects h' L' "SUM(x)" "v" /\ ~ selects h' L' "SUM(y)" "v".
Proof.
  eexists _, _. split; [reflexivity|]. split; [vm_compute; reflexivity|]. split.
  - exists 0. split; [left; reflexivity|]. split; vm_compute; reflexivity.
  - intros (l & Hl & He & Ha). cbn in Hl. destruct Hl as [<-|[<-|[]]].
    + vm_compute in He. discriminate.
    + vm_compute in Ha. discriminate. Qed.

