(** Lemmas about alias sanitizing and suffixes (M_SqlText). *)
From Coq Require Import List String Ascii Bool Arith NArith Lia Wf_nat.
From Coq Require Import DecimalString DecimalN DecimalFacts.
From Verif Require Import M_SqlText.
Import ListNotations.

Lemma ascii_forall (P : ascii -> bool) :
  forallb P (map ascii_of_nat (seq 0 256)) = true -> forall c, P c = true.
Proof.
  intros H c. rewrite forallb_forall in H. apply H.
  apply in_map_iff. exists (nat_of_ascii c). split; [apply ascii_nat_embedding|].
  apply in_seq. pose proof (nat_ascii_bounded c). lia.
Qed.

Lemma to_of_chars l : to_chars (of_chars l) = l.
Proof. apply list_ascii_of_string_of_list_ascii. Qed.
Lemma of_to_chars s : of_chars (to_chars s) = s.
Proof. apply string_of_list_ascii_of_string. Qed.
Lemma to_chars_inj s t : to_chars s = to_chars t -> s = t.
Proof. intros H. rewrite <- (of_to_chars s), <- (of_to_chars t), H. reflexivity. Qed.

Lemma escape_char_no_special c d : In d (escape_char c) -> special d = false.
Proof.
  intros H.
  assert (Hb : forallb (fun d => negb (special d)) (escape_char c) = true).
  { apply (ascii_forall (fun c => forallb (fun d => negb (special d)) (escape_char c))).
    vm_compute. reflexivity. }
  rewrite forallb_forall in Hb. specialize (Hb d H).
  destruct (special d); [discriminate|reflexivity].
Qed.

Lemma flat_no_special a d : In d (flat_map escape_char a) -> special d = false.
Proof. rewrite in_flat_map. intros (c & _ & H). eapply escape_char_no_special; eauto. Qed.

Lemma lstrip_incl ch l c : In c (lstrip ch l) -> In c l.
Proof.
  induction l as [|x t IH]; simpl; [tauto|].
  destruct (Ascii.eqb x ch); intros H; [right; auto | exact H].
Qed.
Lemma strip_incl ch l c : In c (strip ch l) -> In c l.
Proof.
  unfold strip. rewrite <- in_rev. intros H. apply lstrip_incl in H.
  rewrite <- in_rev in H. apply lstrip_incl in H. exact H.
Qed.

Lemma replace_uu_eq l : replace_uu l =
  match l with
  | [] => []
  | c :: t =>
      if Ascii.eqb c underscore then
        match t with
        | d :: t' => if Ascii.eqb d underscore then underscore :: replace_uu t'
                     else c :: replace_uu t
        | [] => [c]
        end
      else c :: replace_uu t
  end.
Proof. destruct l; reflexivity. Qed.

Lemma replace_uu_ind (P : chars -> Prop) :
  P [] ->
  P [underscore] ->
  (forall t, P t -> P (underscore :: underscore :: t)) ->
  (forall d t, d <> underscore -> P (d :: t) -> P (underscore :: d :: t)) ->
  (forall c t, c <> underscore -> P t -> P (c :: t)) ->
  forall l, P l.
Proof.
  intros H0 H1 H2 H3 H4 l.
  induction l as [l IH] using (induction_ltof1 _ (@List.length ascii)); unfold ltof in IH.
  destruct l as [|c t]; [exact H0|].
  destruct (Ascii.eqb_spec c underscore) as [->|Hc].
  - destruct t as [|d t]; [exact H1|].
    destruct (Ascii.eqb_spec d underscore) as [->|Hd].
    + apply H2, IH. simpl; lia.
    + apply H3; [exact Hd|]. apply IH. simpl; lia.
  - apply H4; [exact Hc|]. apply IH. simpl; lia.
Qed.

Lemma eqb_uu : Ascii.eqb underscore underscore = true.
Proof. reflexivity. Qed.
Lemma neqb_u c : c <> underscore -> Ascii.eqb c underscore = false.
Proof. intros H. apply Ascii.eqb_neq. exact H. Qed.

Lemma replace_uu_incl l c : In c (replace_uu l) -> In c l.
Proof.
  revert c. pattern l. apply replace_uu_ind; clear l.
  - intros c H; exact H.
  - intros c H; exact H.
  - intros t IH c. rewrite replace_uu_eq, eqb_uu. simpl. firstorder.
  - intros d t Hd IH c. rewrite replace_uu_eq, eqb_uu, (neqb_u _ Hd).
    cbn [In]. intros [->|H]; [left; reflexivity|]. right. exact (IH _ H).
  - intros d t Hd IH c. rewrite replace_uu_eq, (neqb_u _ Hd). cbn [In]. firstorder.
Qed.

Lemma existsb_false {A} (f : A -> bool) l :
  (forall x, In x l -> f x = false) -> existsb f l = false.
Proof.
  induction l as [|a l IH]; simpl; intros H; [reflexivity|].
  rewrite H by tauto. rewrite IH; firstorder.
Qed.

Lemma existsb_false_inv {A} (f : A -> bool) l x :
  existsb f l = false -> In x l -> f x = false.
Proof.
  intros H Hx. destruct (f x) eqn:E; [|reflexivity].
  exfalso. assert (existsb f l = true) by (apply existsb_exists; eauto). congruence.
Qed.

Definition sanitized (a : chars) : chars :=
  replace_uu (strip " " (strip underscore (flat_map escape_char a))).

Lemma sanitized_no_special a c : In c (sanitized a) -> special c = false.
Proof.
  unfold sanitized. intros H. apply replace_uu_incl, strip_incl, strip_incl in H.
  eapply flat_no_special; eauto.
Qed.

Lemma escape_chars_no_special a b : escape_chars a = Some b -> existsb special b = false.
Proof.
  unfold escape_chars. fold (sanitized a). intros H. destruct a as [|x a'] eqn:Ea.
  { injection H as <-. reflexivity. }
  rewrite <- Ea in *. clear Ea x a'.
  destruct (existsb special a) eqn:E; simpl in H.
  - assert (Hs := sanitized_no_special a).
    destruct (sanitized a) as [|c r]; [discriminate|].
    destruct (is_digit c); injection H as <-.
    + apply existsb_false. intros d Hd. simpl in Hd.
      destruct Hd as [<-|[<-|[<-|[<-|Hd]]]]; try reflexivity. apply Hs. exact Hd.
    + apply existsb_false. exact Hs.
  - injection H as <-. exact E.
Qed.

Lemma escape_chars_clean a : existsb special a = false -> escape_chars a = Some a.
Proof. destruct a; intros H; [reflexivity|]. unfold escape_chars. rewrite H. reflexivity. Qed.

Lemma escape_chars_idem a b : escape_chars a = Some b -> escape_chars b = Some b.
Proof. intros H. apply escape_chars_clean. eapply escape_chars_no_special; eauto. Qed.

Lemma escape_chars_no_digit_head a c b :
  existsb special a = true -> escape_chars a = Some (c :: b) -> is_digit c = false.
Proof.
  intros Hs. unfold escape_chars. fold (sanitized a). destruct a as [|x a'] eqn:Ea.
  { discriminate. }
  rewrite <- Ea in *. clear Ea x a'. rewrite Hs; simpl.
  destruct (sanitized a) as [|d r]; [discriminate|].
  destruct (is_digit d) eqn:E; intros H; injection H as <- <-; [reflexivity|exact E].
Qed.

(** *** When the result is empty (IndexError) *)

Definition wordless (c : ascii) : bool :=
  forallb (Ascii.eqb underscore) (escape_char c).

Lemma lstrip_nil_iff ch l : lstrip ch l = [] <-> forallb (Ascii.eqb ch) l = true.
Proof.
  induction l as [|x t IH]; simpl; [tauto|].
  rewrite (Ascii.eqb_sym ch x).
  destruct (Ascii.eqb x ch); simpl; [exact IH|]. split; discriminate.
Qed.
Lemma strip_nil_iff ch l : strip ch l = [] <-> forallb (Ascii.eqb ch) l = true.
Proof.
  unfold strip. split.
  - intros H. apply (f_equal (@rev ascii)) in H. rewrite rev_involutive in H. simpl in H.
    apply lstrip_nil_iff in H. apply lstrip_nil_iff.
    destruct (lstrip ch l) as [|c t] eqn:E; [reflexivity|].
    exfalso. rewrite forallb_forall in H.
    assert (Hc : Ascii.eqb ch c = true) by (apply H; rewrite <- in_rev; left; reflexivity).
    apply Ascii.eqb_eq in Hc. subst c.
    clear H. revert t E. induction l as [|x l IH]; intros t E; simpl in E; [discriminate|].
    destruct (Ascii.eqb x ch) eqn:Ex; [eauto|].
    injection E as -> _. rewrite Ascii.eqb_refl in Ex. discriminate.
  - intros H. apply lstrip_nil_iff in H. rewrite H. reflexivity.
Qed.

Lemma replace_uu_nil l : replace_uu l = [] -> l = [].
Proof.
  rewrite replace_uu_eq. destruct l as [|c t]; [reflexivity|].
  destruct (Ascii.eqb c underscore); [|discriminate].
  destruct t as [|d t]; [discriminate|]. destruct (Ascii.eqb d underscore); discriminate.
Qed.

Lemma space_special : special " " = true. Proof. reflexivity. Qed.

Lemma strip_id ch l : (forall c, In c l -> c <> ch) -> strip ch l = l.
Proof.
  intros H. unfold strip.
  assert (Hl : forall l', (forall c, In c l' -> c <> ch) -> lstrip ch l' = l').
  { intros [|x t] Hx; [reflexivity|]. simpl.
    assert (Hn : x <> ch) by (apply Hx; left; reflexivity).
    apply Ascii.eqb_neq in Hn. rewrite Hn. reflexivity. }
  rewrite (Hl l H). rewrite Hl; [apply rev_involutive|].
  intros c Hc. apply H. rewrite in_rev. exact Hc.
Qed.

Lemma strip_space_id a :
  strip " " (strip underscore (flat_map escape_char a)) = strip underscore (flat_map escape_char a).
Proof.
  apply strip_id. intros c Hc ->. apply strip_incl, flat_no_special in Hc.
  rewrite space_special in Hc. discriminate.
Qed.

Lemma forallb_flat_map {A B} (f : B -> bool) (g : A -> list B) l :
  forallb f (flat_map g l) = forallb (fun x => forallb f (g x)) l.
Proof.
  induction l as [|a l IH]; simpl; [reflexivity|]. rewrite forallb_app, IH. reflexivity.
Qed.

Lemma escape_chars_none_iff a :
  escape_chars a = None <->
  existsb special a = true /\ forallb wordless a = true.
Proof.
  unfold escape_chars. fold (sanitized a).
  assert (Hs : sanitized a = [] <-> forallb wordless a = true).
  { unfold sanitized. rewrite strip_space_id. split.
    - intros H. apply replace_uu_nil, strip_nil_iff in H.
      rewrite forallb_flat_map in H. exact H.
    - intros H. assert (E : strip underscore (flat_map escape_char a) = []).
      { apply strip_nil_iff. rewrite forallb_flat_map. exact H. }
      rewrite E. reflexivity. }
  destruct a as [|x a'] eqn:Ea.
  { split; [discriminate|]. intros [H _]; discriminate. }
  rewrite <- Ea in *. clear Ea x a'.
  destruct (existsb special a); simpl.
  - destruct (sanitized a) as [|c r].
    + tauto.
    + split; [destruct (is_digit c); discriminate|]. intros [_ H]. apply Hs in H. discriminate.
  - split; [discriminate|]. intros [H _]; discriminate.
Qed.

(** *** Digits *)

Lemma digit_chars_of_uint d : d <> Decimal.Nil ->
  forallb is_digit (to_chars (NilZero.string_of_uint d)) = true.
Proof.
  intros Hd. assert (H : forall d, forallb is_digit (to_chars (NilEmpty.string_of_uint d)) = true).
  { clear. induction d; simpl; auto. }
  destruct d; try congruence; apply H.
Qed.

Lemma to_uint_nonnil n : N.to_uint n <> Decimal.Nil.
Proof.
  rewrite <- (DecimalN.Unsigned.of_to n), DecimalN.Unsigned.to_of. unfold Decimal.unorm.
  destruct (Decimal.nzhead (N.to_uint n)); discriminate.
Qed.

Lemma str_of_N_digits n : forallb is_digit (str_of_N n) = true.
Proof. apply digit_chars_of_uint, to_uint_nonnil. Qed.

Lemma str_of_N_nonempty n : str_of_N n <> [].
Proof.
  unfold str_of_N. pose proof (to_uint_nonnil n). destruct (N.to_uint n); try congruence; discriminate.
Qed.

Lemma N_of_str_of_N n : N_of_str (str_of_N n) = Some n.
Proof.
  unfold N_of_str, str_of_N. rewrite of_to_chars.
  rewrite NilZero.usu by apply to_uint_nonnil. simpl.
  rewrite DecimalN.Unsigned.of_to. reflexivity.
Qed.

Lemma str_of_N_inj n m : str_of_N n = str_of_N m -> n = m.
Proof.
  intros H. assert (E : Some n = Some m) by (rewrite <- !N_of_str_of_N, H; reflexivity).
  congruence.
Qed.

Lemma span_digits_app d r :
  forallb is_digit d = true ->
  match r with [] => True | c :: _ => is_digit c = false end ->
  span_digits (d ++ r) = (d, r).
Proof.
  intros Hd Hr. induction d as [|c d IH]; simpl in *.
  - destruct r as [|c r]; [reflexivity|]. simpl. rewrite Hr. reflexivity.
  - apply andb_prop in Hd as [Hc Hd]. rewrite Hc, (IH Hd). reflexivity.
Qed.

Lemma span_digits_spec l d r : span_digits l = (d, r) ->
  l = d ++ r /\ forallb is_digit d = true /\
  match r with [] => True | c :: _ => is_digit c = false end.
Proof.
  revert d r. induction l as [|c l IH]; simpl; intros d r H.
  - injection H as <- <-. auto.
  - destruct (is_digit c) eqn:E.
    + destruct (span_digits l) as [d' r'] eqn:Es. injection H as <- <-.
      destruct (IH _ _ eq_refl) as (-> & H2 & H3). simpl. rewrite E. auto.
    + injection H as <- <-. simpl. auto.
Qed.

(** A stem does not end with a digit. *)
Definition stem_ok (l : chars) : Prop :=
  match rev l with [] => True | c :: _ => is_digit c = false end.

Lemma forallb_rev {A} (f : A -> bool) l : forallb f (rev l) = forallb f l.
Proof.
  induction l as [|a l IH]; simpl; [reflexivity|].
  rewrite forallb_app, IH. simpl. rewrite andb_true_r. apply andb_comm.
Qed.

Lemma split_suffix_app stem d :
  stem_ok stem -> forallb is_digit d = true -> split_suffix (stem ++ d) = (stem, d).
Proof.
  intros Hs Hd. unfold split_suffix. rewrite rev_app_distr.
  rewrite span_digits_app; [rewrite !rev_involutive; reflexivity|rewrite forallb_rev; exact Hd|exact Hs].
Qed.

Lemma split_suffix_spec l stem d : split_suffix l = (stem, d) ->
  l = stem ++ d /\ forallb is_digit d = true /\ stem_ok stem.
Proof.
  unfold split_suffix. destruct (span_digits (rev l)) as [d' r] eqn:E.
  intros H. injection H as <- <-. apply span_digits_spec in E as (E & Hd & Hr).
  apply (f_equal (@rev ascii)) in E. rewrite rev_involutive, rev_app_distr in E.
  rewrite forallb_rev. unfold stem_ok. rewrite rev_involutive. auto.
Qed.

Lemma stem_digits_inj s1 d1 s2 d2 :
  stem_ok s1 -> stem_ok s2 -> forallb is_digit d1 = true -> forallb is_digit d2 = true ->
  s1 ++ d1 = s2 ++ d2 -> s1 = s2 /\ d1 = d2.
Proof.
  intros H1 H2 H3 H4 E.
  pose proof (split_suffix_app _ _ H1 H3) as E1.
  pose proof (split_suffix_app _ _ H2 H4) as E2.
  rewrite E in E1. rewrite E1 in E2. injection E2 as -> ->. auto.
Qed.

Lemma stem_ok_underscore s : stem_ok (s ++ [underscore]).
Proof. unfold stem_ok. rewrite rev_app_distr. reflexivity. Qed.

(** *** escape keeps a numeric suffix *)

Lemma escape_char_digit c : is_digit c = true -> escape_char c = [c].
Proof.
  intros H.
  assert (Hb : implb (is_digit c) (match escape_char c with [d] => Ascii.eqb c d | _ => false end) = true).
  { apply (ascii_forall (fun c => implb (is_digit c)
       (match escape_char c with [d] => Ascii.eqb c d | _ => false end))). vm_compute. reflexivity. }
  rewrite H in Hb. simpl in Hb. destruct (escape_char c) as [|d [|]]; try discriminate.
  apply Ascii.eqb_eq in Hb. congruence.
Qed.

Lemma flat_escape_digits d : forallb is_digit d = true -> flat_map escape_char d = d.
Proof.
  induction d as [|c d IH]; simpl; intros H; [reflexivity|].
  apply andb_prop in H as [Hc Hd]. rewrite (escape_char_digit _ Hc), (IH Hd). reflexivity.
Qed.

Lemma digit_not_u c : is_digit c = true -> c <> underscore.
Proof. intros H ->. discriminate. Qed.

Lemma replace_uu_app_digits s d :
  forallb is_digit d = true -> replace_uu (s ++ d) = replace_uu s ++ d.
Proof.
  intros Hd.
  assert (H0 : replace_uu d = d).
  { clear s. induction d as [|c d IH]; [reflexivity|].
    simpl in Hd. apply andb_prop in Hd as [Hc Hd].
    rewrite replace_uu_eq, (neqb_u _ (digit_not_u _ Hc)), (IH Hd). reflexivity. }
  pattern s. apply replace_uu_ind; clear s.
  - simpl. exact H0.
  - cbn [app]. rewrite replace_uu_eq, eqb_uu.
    destruct d as [|c d']; [reflexivity|].
    pose proof Hd as Hd'. simpl in Hd'. apply andb_prop in Hd' as [Hc _].
    rewrite (neqb_u _ (digit_not_u _ Hc)). rewrite H0. reflexivity.
  - intros t IH. cbn [app]. rewrite !(replace_uu_eq (_ :: _ :: _)), eqb_uu, IH. reflexivity.
  - intros c t Hc IH. cbn [app]. cbn [app] in IH.
    rewrite !(replace_uu_eq (_ :: _ :: _)), eqb_uu, (neqb_u _ Hc), IH. reflexivity.
  - intros c t Hc IH. cbn [app]. rewrite !(replace_uu_eq (_ :: _)), (neqb_u _ Hc), IH. reflexivity.
Qed.

Lemma replace_uu_ends_u s : exists s', replace_uu (s ++ [underscore]) = s' ++ [underscore].
Proof.
  pattern s. apply replace_uu_ind; clear s.
  - exists []. reflexivity.
  - exists []. reflexivity.
  - intros t [s' IH]. exists (underscore :: s'). cbn [app].
    rewrite replace_uu_eq, eqb_uu, IH. reflexivity.
  - intros d t Hd [s' IH]. exists (underscore :: s'). cbn [app]. cbn [app] in IH.
    rewrite replace_uu_eq, eqb_uu, (neqb_u _ Hd), IH. reflexivity.
  - intros d t Hd [s' IH]. exists (d :: s'). cbn [app].
    rewrite replace_uu_eq, (neqb_u _ Hd), IH. reflexivity.
Qed.

Lemma lstrip_ends ch s : lstrip ch (s ++ [ch]) = [] \/ exists s', lstrip ch (s ++ [ch]) = s' ++ [ch].
Proof.
  induction s as [|c s IH]; simpl.
  - rewrite Ascii.eqb_refl. auto.
  - destruct (Ascii.eqb c ch); [exact IH|]. right. exists (c :: s). reflexivity.
Qed.

Lemma lstrip_app_digits s d :
  forallb is_digit d = true ->
  lstrip underscore (s ++ d) = lstrip underscore s ++ d.
Proof.
  intros Hd. induction s as [|c s IH]; simpl.
  - destruct d as [|c d]; [reflexivity|]. simpl in Hd. apply andb_prop in Hd as [Hc _].
    simpl. rewrite (neqb_u _ (digit_not_u _ Hc)). reflexivity.
  - destruct (Ascii.eqb c underscore); [exact IH|reflexivity].
Qed.

Lemma strip_app_digits s d :
  d <> [] -> forallb is_digit d = true ->
  strip underscore (s ++ d) = lstrip underscore s ++ d.
Proof.
  intros Hn Hd. unfold strip. rewrite (lstrip_app_digits _ _ Hd).
  rewrite rev_app_distr.
  assert (Hr : forallb is_digit (rev d) = true) by (rewrite forallb_rev; exact Hd).
  assert (Hn' : rev d <> []).
  { intros E. apply Hn. apply (f_equal (@rev ascii)) in E. rewrite rev_involutive in E. exact E. }
  destruct (rev d) as [|c r] eqn:E; [congruence|].
  simpl in Hr. apply andb_prop in Hr as [Hc _].
  simpl. rewrite (neqb_u _ (digit_not_u _ Hc)).
  cbn [rev]. rewrite rev_app_distr, rev_involutive, <- app_assoc.
  f_equal. apply (f_equal (@rev ascii)) in E. rewrite rev_involutive in E. simpl in E. congruence.
Qed.

Lemma escape_suffix a d :
  d <> [] -> forallb is_digit d = true ->
  exists p, escape_chars (a ++ underscore :: d) = Some (p ++ underscore :: d).
Proof.
  intros Hn Hd.
  assert (Hsp : existsb special (a ++ underscore :: d) = existsb special a).
  { rewrite existsb_app. simpl.
    assert (existsb special d = false) as ->.
    { apply existsb_false. intros c Hc. rewrite forallb_forall in Hd.
      specialize (Hd _ Hc). apply (escape_char_no_special c).
      rewrite (escape_char_digit _ Hd). left. reflexivity. }
    rewrite orb_false_r. reflexivity. }
  destruct (existsb special a) eqn:Es.
  2:{ exists a. apply escape_chars_clean. exact Hsp. }
  unfold escape_chars. fold (sanitized (a ++ underscore :: d)).
  rewrite Hsp.
  assert (Hsan : (sanitized (a ++ underscore :: d) = d) \/
                 exists p, sanitized (a ++ underscore :: d) = p ++ underscore :: d).
  { unfold sanitized. rewrite strip_space_id.
    rewrite flat_map_app. cbn [flat_map]. rewrite (flat_escape_digits _ Hd).
    change (escape_char underscore) with [underscore].
    rewrite app_assoc. rewrite (strip_app_digits _ _ Hn Hd).
    rewrite (replace_uu_app_digits _ _ Hd).
    destruct (lstrip_ends underscore (flat_map escape_char a)) as [->|[s' ->]].
    - left. reflexivity.
    - right. destruct (replace_uu_ends_u s') as [p ->]. exists p.
      rewrite <- app_assoc. reflexivity. }
  destruct (a ++ underscore :: d) as [|x y] eqn:E; [destruct a; discriminate|].
  rewrite <- E in *. clear E x y. cbn [negb].
  destruct Hsan as [Hsan|[p Hsan]].
  - rewrite Hsan. exists (to_chars "col"). destruct d as [|c d']; [congruence|].
    simpl in Hd. apply andb_prop in Hd as [Hc _]. rewrite Hc. reflexivity.
  - rewrite Hsan. destruct (p ++ underscore :: d) as [|c r] eqn:E.
    + exfalso. destruct p; discriminate.
    + rewrite <- E. destruct (is_digit c).
      * exists (to_chars "col_" ++ p). rewrite <- app_assoc. reflexivity.
      * exists p. reflexivity.
Qed.

(** The alias of a column with suffix [n] is different for every [n >= 1]. *)
Lemma escape_suffix_inj a n m b :
  escape_chars (a ++ underscore :: str_of_N n) = Some b ->
  escape_chars (a ++ underscore :: str_of_N m) = Some b -> n = m.
Proof.
  intros Hn Hm.
  destruct (escape_suffix a _ (str_of_N_nonempty n) (str_of_N_digits n)) as [p Hp].
  destruct (escape_suffix a _ (str_of_N_nonempty m) (str_of_N_digits m)) as [q Hq].
  rewrite Hp in Hn. rewrite Hq in Hm. rewrite <- Hn in Hm. injection Hm as E.
  apply str_of_N_inj.
  change (underscore :: str_of_N n) with ([underscore] ++ str_of_N n) in E.
  change (underscore :: str_of_N m) with ([underscore] ++ str_of_N m) in E.
  rewrite !app_assoc in E.
  apply stem_digits_inj in E as [_ E]; auto using stem_ok_underscore, str_of_N_digits.
Qed.

(** *** add_suffix *)

Lemma N_of_str_digits d : d <> [] -> forallb is_digit d = true -> exists n, N_of_str d = Some n.
Proof.
  intros Hn Hd. unfold N_of_str.
  assert (H : forall l, forallb is_digit l = true ->
     exists u, NilEmpty.uint_of_string (of_chars l) = Some u).
  { clear. induction l as [|c l IH]; simpl; intros H; [eexists; reflexivity|].
    apply andb_prop in H as [Hc Hl]. destruct (IH Hl) as [u ->].
    assert (Hb : implb (is_digit c)
       (match uint_of_char c (Some Decimal.Nil) with Some _ => true | None => false end) = true).
    { apply (ascii_forall (fun c => implb (is_digit c)
       (match uint_of_char c (Some Decimal.Nil) with Some _ => true | None => false end))).
      vm_compute. reflexivity. }
    rewrite Hc in Hb. simpl in Hb.
    destruct c as [b0 b1 b2 b3 b4 b5 b6 b7].
    destruct b0, b1, b2, b3, b4, b5, b6, b7; simpl in *; try discriminate; eexists; reflexivity. }
  destruct (H d Hd) as [u Hu].
  destruct d as [|c d']; [congruence|].
  unfold NilZero.uint_of_string. simpl of_chars in *. rewrite Hu. simpl. eexists. reflexivity.
Qed.

Lemma lstrip_head ch l : match lstrip ch l with [] => True | c :: _ => c <> ch end.
Proof.
  induction l as [|x t IH]; simpl; [exact I|].
  destruct (Ascii.eqb_spec x ch); [exact IH|exact n].
Qed.

Lemma strip_head ch l : match strip ch l with [] => True | c :: _ => c <> ch end.
Proof.
  unfold strip. pose proof (lstrip_head ch l) as Hh.
  destruct (lstrip ch l) as [|c t]; [exact I|].
  cbn [rev].
  assert (G : forall l', exists l'', lstrip ch (l' ++ [c]) = l'' ++ [c]).
  { clear t. induction l' as [|x l' IH]; simpl.
    - apply Ascii.eqb_neq in Hh. rewrite Hh. exists []. reflexivity.
    - destruct (Ascii.eqb x ch); [exact IH|]. exists (x :: l'). reflexivity. }
  destruct (G (rev t)) as [l'' ->]. rewrite rev_app_distr. simpl. exact Hh.
Qed.

Definition backtick : ascii := "`"%char.

Definition no_bt_head (l : chars) : Prop := match l with [] => True | c :: _ => c <> backtick end.

Lemma strip_bt_digits stem d :
  d <> [] -> forallb is_digit d = true -> no_bt_head stem ->
  strip backtick (stem ++ d) = stem ++ d.
Proof.
  intros Hn Hd Hs.
  assert (Hdig : forall c, is_digit c = true -> Ascii.eqb c backtick = false).
  { intros c Hc. apply Ascii.eqb_neq. intros ->. discriminate. }
  unfold strip.
  assert (E1 : lstrip backtick (stem ++ d) = stem ++ d).
  { destruct stem as [|c s]; simpl.
    - destruct d as [|c d]; [congruence|]. simpl in *. apply andb_prop in Hd as [Hc _].
      rewrite (Hdig _ Hc). reflexivity.
    - simpl in Hs. apply Ascii.eqb_neq in Hs. rewrite Hs. reflexivity. }
  rewrite E1, rev_app_distr.
  assert (Hr : forallb is_digit (rev d) = true) by (rewrite forallb_rev; exact Hd).
  assert (E2 : lstrip backtick (rev d ++ rev stem) = rev d ++ rev stem).
  { destruct (rev d) as [|c r] eqn:E.
    - exfalso. apply Hn. apply (f_equal (@rev ascii)) in E. rewrite rev_involutive in E. exact E.
    - simpl in Hr. apply andb_prop in Hr as [Hc _]. simpl. rewrite (Hdig _ Hc). reflexivity. }
  rewrite E2, rev_app_distr, !rev_involutive. reflexivity.
Qed.

Lemma add_suffix_first a : exists stem n,
  stem_ok stem /\ no_bt_head stem /\ add_suffix_chars a = stem ++ str_of_N n.
Proof.
  unfold add_suffix_chars. fold backtick. pose proof (strip_head backtick a) as Hh.
  destruct (strip backtick a) as [|c0 r0] eqn:Ea.
  - exists [underscore], 1%N. repeat split. simpl. discriminate.
  - rewrite <- Ea in *. destruct (split_suffix (strip backtick a)) as [stem d] eqn:E.
    apply split_suffix_spec in E as (E & Hd & Hst).
    destruct d as [|c d].
    + exists (strip backtick a ++ [underscore]), 1%N. split; [apply stem_ok_underscore|]. split.
      * rewrite Ea in *. simpl. exact Hh.
      * rewrite <- app_assoc. reflexivity.
    + destruct (N_of_str_digits (c :: d)) as [n ->]; [discriminate|exact Hd|].
      exists stem, (n + 1)%N. repeat split; auto.
      rewrite E in *. destruct stem; simpl in *; auto; try congruence.
Qed.

Lemma add_suffix_next stem n : stem_ok stem -> no_bt_head stem ->
  add_suffix_chars (stem ++ str_of_N n) = stem ++ str_of_N (n + 1).
Proof.
  intros Hs Hb. unfold add_suffix_chars. fold backtick.
  rewrite strip_bt_digits; auto using str_of_N_nonempty, str_of_N_digits.
  rewrite split_suffix_app; auto using str_of_N_digits.
  destruct (str_of_N n) as [|c d] eqn:E; [exfalso; exact (str_of_N_nonempty n E)|].
  rewrite <- E, N_of_str_of_N. reflexivity.
Qed.

Lemma iter_add_suffix a : exists stem n, stem_ok stem /\
  forall k, Nat.iter (S k) add_suffix_chars a = stem ++ str_of_N (n + N.of_nat k).
Proof.
  destruct (add_suffix_first a) as (stem & n & Hs & Hb & H). exists stem, n. split; [exact Hs|].
  induction k as [|k IH].
  - simpl. rewrite H, N.add_0_r. reflexivity.
  - cbn [Nat.iter nat_rect] in IH |- *. unfold Nat.iter in IH |- *. cbn [nat_rect] in IH |- *.
    rewrite IH. rewrite (add_suffix_next _ _ Hs Hb). f_equal. f_equal. lia.
Qed.

Lemma iter_add_suffix_inj a j k :
  Nat.iter (S j) add_suffix_chars a = Nat.iter (S k) add_suffix_chars a -> j = k.
Proof.
  destruct (iter_add_suffix a) as (stem & n & Hs & H). rewrite !H. intros E.
  apply app_inv_head in E. apply str_of_N_inj in E. lia.
Qed.
