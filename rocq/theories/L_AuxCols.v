From Coq Require Import String Ascii List Bool Arith Lia FinFun.
From Verif Require Import M_AuxCols S_AuxCols.
Import ListNotations.
Open Scope string_scope.
Open Scope list_scope.
Local Notation "a +++ b" := (String.append a b) (at level 60, right associativity).

Lemma sapp_assoc a b c : (a +++ b) +++ c = a +++ (b +++ c).
Proof. induction a; cbn; [reflexivity|now rewrite IHa]. Qed.
Lemma sapp_nil a : a +++ "" = a.
Proof. induction a; cbn; [reflexivity|now rewrite IHa]. Qed.
Lemma sapp_length a b : String.length (a +++ b) = String.length a + String.length b.
Proof. induction a; cbn; [reflexivity|now rewrite IHa]. Qed.
Lemma sapp_cancel a b c : a +++ b = a +++ c -> b = c.
Proof. induction a; cbn; intros H; [exact H|]. injection H as H. auto. Qed.
Lemma starts_with_iff p s : starts_with p s = true <-> exists t, s = p +++ t.
Proof.
  unfold starts_with. revert s. induction p as [|x p IH]; intros s.
  - split; [intros _; now exists s|destruct s; reflexivity].
  - destruct s as [|y s]; [split; [discriminate|intros [t H]; discriminate]|].
    change (String.prefix (String x p) (String y s)) with (if ascii_dec x y then String.prefix p s else false).
    destruct (ascii_dec x y) as [->|N].
    + rewrite IH. split; intros [t H]; exists t; [now subst|now injection H].
    + split; [discriminate|]. intros [t H]. injection H as H _. congruence.
Qed.
Lemma colons_snoc k : colons k +++ ":" = colons (S k).
Proof. induction k; [reflexivity|]. cbn [colons] in *. rewrite sapp_assoc, IHk. reflexivity. Qed.
Lemma prefix_loop_spec fuel p cols : fold_right (fun c m => Nat.max (String.length c) m) 0 cols < String.length p + fuel ->
  exists k, prefix_loop fuel p cols = Some (p +++ colons k) /\ (forall c, In c cols -> starts_with (p +++ colons k) c = false) /\
    forall j, j < k -> exists c, In c cols /\ starts_with (p +++ colons j) c = true.
Proof.
  revert p. induction fuel as [|f IH]; intros p H; cbn.
  all: destruct (existsb (starts_with p) cols) eqn:E.
  - exfalso. apply existsb_exists in E. destruct E as (c & Hc & Hp). apply starts_with_iff in Hp. destruct Hp as [t ->].
    assert (M : forall l x, In x l -> String.length x <= fold_right (fun c m => Nat.max (String.length c) m) 0 l) by (induction l as [|y l IHl]; cbn; intros x []; subst; [lia|specialize (IHl x H0); lia]).
    specialize (M cols _ Hc). rewrite sapp_length in M. lia.
  - exists 0. rewrite sapp_nil. split; [reflexivity|]. split; [|intros; lia]. intros c Hc. destruct (starts_with p c) eqn:Q; [|reflexivity].
    exfalso. assert (existsb (starts_with p) cols = true) by (apply existsb_exists; eauto). congruence.
  - destruct (IH (p +++ ":")) as (k & E1 & E2 & E3); [rewrite sapp_length; cbn; lia|].
    assert (A : forall k, (p +++ ":") +++ colons k = p +++ colons (S k)) by (intros; apply sapp_assoc).
    exists (S k). rewrite <- A. split; [exact E1|]. split; [exact E2|]. intros [|j] Hj.
    + cbn. rewrite sapp_nil. apply existsb_exists in E. exact E.
    + rewrite <- A. apply E3. lia.
  - exists 0. rewrite sapp_nil. split; [reflexivity|]. split; [|intros; lia]. intros c Hc. destruct (starts_with p c) eqn:Q; [|reflexivity].
    exfalso. assert (existsb (starts_with p) cols = true) by (apply existsb_exists; eauto). congruence.
Qed.

(** * Names determine trees *)
Definition special (c : ascii) : bool := existsb (Ascii.eqb c) [" "; "("; ")"; ","]%char.
Arguments special _ : simpl never.
Fixpoint plain (s : string) : bool := match s with "" => true | String c s' => negb (special c) && plain s' end.
(** the rest of a name after a subexpression: nothing, or a space, a closing parenthesis or a comma *)
Definition rest (s : string) : Prop := match s with "" => True | String c _ => special c = true /\ c <> "("%char end.
Lemma plain_rest_cancel a b r s : plain a = true -> plain b = true -> rest r -> rest s -> a +++ r = b +++ s -> a = b /\ r = s.
Proof.
  revert b. induction a as [|x a IH]; intros [|y b] Pa Pb Hr Hs E; cbn in *.
  - auto.
  - subst r. destruct Hr as [Hr _]. rewrite Hr in Pb. discriminate.
  - subst s. destruct Hs as [Hs _]. rewrite Hs in Pa. discriminate.
  - injection E as -> E. apply andb_true_iff in Pa, Pb. destruct (IH b) as [-> ->]; try tauto. 
Qed.
Lemma plain_app a b : plain (a +++ b) = plain a && plain b.
Proof. induction a; cbn; [reflexivity|]. now rewrite IHa, andb_assoc. Qed.
(** a plain string followed by a rest that starts with a plain prefix contains the prefix *)
Lemma plain_prefix p t s r : plain p = true -> plain s = true -> rest r -> s +++ r = p +++ t -> exists u, s = p +++ u.
Proof.
  revert s. induction p as [|x p IH]; intros s Pp Ps Hr E; [now exists s|]. cbn in *. apply andb_true_iff in Pp. destruct Pp as [Px Pp].
  destruct s as [|y s]; cbn in *.
  - subst r. destruct Hr as [Hr _]. rewrite Hr in Px. discriminate.
  - injection E as -> E. apply andb_true_iff in Ps. destruct (IH s) as [u ->]; try tauto. now exists u.
Qed.
Inductive tree := Col (s : string) | Const (s : string) | Bin (o : binop) (a b : tree) | Prev (t : tree) | Lam (k : nat).
Fixpoint underscores (k : nat) : string := match k with O => "" | S k' => ("_" +++ underscores k')%string end.
Section Names.
Variable prefix : string.
Variable numeric : string -> bool.
Hypothesis prefix_plain : plain prefix = true.
Hypothesis prefix_m : exists p, prefix = String "m" p.
Fixpoint pr (t : tree) : string :=
  match t with
  | Col s | Const s => s
  | Bin o a b => op_name o (pr a) (pr b)
  | Prev t => (prefix +++ pr t)%string
  | Lam k => (prefix +++ ("lambda" +++ underscores k))%string
  end.
Definition is_bin (t : tree) : Prop := match t with Bin _ _ _ => True | _ => False end.
Fixpoint wf (t : tree) : Prop :=
  match t with
  | Col s => plain s = true /\ numeric s = false /\ starts_with prefix s = false
  | Const s => plain s = true /\ numeric s = true /\ starts_with prefix s = false
  | Bin _ a b => wf a /\ wf b
  | Prev t => is_bin t /\ wf t
  | Lam _ => True
  end.
Lemma plain_underscores k : plain (underscores k) = true.
Proof. induction k; cbn; [reflexivity|exact IHk]. Qed.
Lemma underscores_inj a b : underscores a = underscores b -> a = b.
Proof. revert b. induction a; intros [|b]; cbn; try discriminate; [reflexivity|]. intros H. injection H as H. f_equal. auto. Qed.
Lemma no_prefix s r t : plain s = true -> starts_with prefix s = false -> rest r -> s +++ r = prefix +++ t -> False.
Proof.
  intros Ps Hs Hr E. destruct (plain_prefix prefix t s r prefix_plain Ps Hr E) as [u ->].
  assert (starts_with prefix (prefix +++ u) = true) by (apply starts_with_iff; eauto). congruence.
Qed.
Definition head_of (o : binop) : string := match o with Pow => "POWER(" | _ => "(" end.
Definition mid_of (o : binop) : string := match o with Add => " + " | Sub => " - " | Mul => " * " | Div => " / " | Pow => ", " end.
Lemma op_name_is o a b : op_name o a b = head_of o +++ (a +++ (mid_of o +++ (b +++ ")"))).
Proof. destruct o; reflexivity. Qed.
(** a plain string is not the start of a parenthesized name *)
Lemma plain_not_op s r o x : plain s = true -> rest r -> s +++ r = head_of o +++ x -> False.
Proof.
  intros Ps Hr E.
  assert (H : forall h, plain h = true -> s +++ r = h +++ String "(" x -> False).
  { clear E. intros h. revert s Ps. induction h as [|y h IH]; intros s Ps Ph E'; cbn in *.
    - destruct s as [|z s]; cbn in *; [subst r; now destruct Hr as [_ Hr]|]. injection E' as -> E'. cbn in Ps. discriminate.
    - destruct s as [|z s]; cbn in *.
      + subst r. destruct Hr as [Hr _]. rewrite Hr in Ph. discriminate.
      + injection E' as -> E'. apply andb_true_iff in Ps, Ph. apply (IH s); tauto. }
  destruct o; cbn in E; (apply (H "" eq_refl E) || apply (H "POWER" eq_refl E)).
Qed.
Lemma lam_not_op k o x r : "lambda" +++ (underscores k +++ r) = head_of o +++ x -> False.
Proof. destruct o; cbn; discriminate. Qed.
Lemma pr_inj t1 : forall t2 r1 r2, wf t1 -> wf t2 -> rest r1 -> rest r2 -> pr t1 +++ r1 = pr t2 +++ r2 -> t1 = t2 /\ r1 = r2.
Proof.
  destruct prefix_m as [p Ep].
  assert (NM : forall o a b, head_of o +++ a = prefix +++ b -> False) by (intros o a b; rewrite Ep; destruct o; cbn; discriminate).
  induction t1 as [s|s|o a IHa b IHb|t IH|k]; intros t2 r1 r2 W1 W2 H1 H2 E; cbn in W1.
  - destruct t2 as [s2|s2|o2 a2 b2|t2|k2]; cbn in W2, E.
    + destruct W1 as (P1 & _), W2 as (P2 & _). destruct (plain_rest_cancel s s2 r1 r2 P1 P2 H1 H2 E) as [-> ->]. auto.
    + destruct (plain_rest_cancel s s2 r1 r2) as [-> ->]; try tauto. destruct W1 as (_ & N1 & _), W2 as (_ & N2 & _). congruence.
    + exfalso. rewrite op_name_is, sapp_assoc in E. eapply plain_not_op; [|exact H1|exact E]. tauto.
    + exfalso. rewrite sapp_assoc in E. eapply (no_prefix s r1); [| |exact H1|exact E]; tauto.
    + exfalso. rewrite !sapp_assoc in E. eapply (no_prefix s r1); [| |exact H1|exact E]; tauto.
  - destruct t2 as [s2|s2|o2 a2 b2|t2|k2]; cbn in W2, E.
    + destruct (plain_rest_cancel s s2 r1 r2) as [-> ->]; try tauto. destruct W1 as (_ & N1 & _), W2 as (_ & N2 & _). congruence.
    + destruct W1 as (P1 & _), W2 as (P2 & _). destruct (plain_rest_cancel s s2 r1 r2 P1 P2 H1 H2 E) as [-> ->]. auto.
    + exfalso. rewrite op_name_is, sapp_assoc in E. eapply plain_not_op; [|exact H1|exact E]. tauto.
    + exfalso. rewrite sapp_assoc in E. eapply (no_prefix s r1); [| |exact H1|exact E]; tauto.
    + exfalso. rewrite !sapp_assoc in E. eapply (no_prefix s r1); [| |exact H1|exact E]; tauto.
  - destruct t2 as [s2|s2|o2 a2 b2|t2|k2]; cbn in W2, E; rewrite ?op_name_is, ?sapp_assoc in E.
    + exfalso. symmetry in E. eapply plain_not_op; [|exact H2|exact E]. tauto.
    + exfalso. symmetry in E. eapply plain_not_op; [|exact H2|exact E]. tauto.
    + assert (EH : head_of o = head_of o2) by (destruct o, o2; cbn in E; try reflexivity; discriminate).
      rewrite EH in E. apply sapp_cancel in E.
      assert (RM : forall o x, rest (mid_of o +++ x)) by (intros []; intros; cbn; split; try reflexivity; discriminate).
      destruct (IHa a2 (mid_of o +++ (pr b +++ (")" +++ r1))) (mid_of o2 +++ (pr b2 +++ (")" +++ r2)))) as [-> E']; [tauto|tauto|apply RM|apply RM|exact E|].
      assert (EO : o = o2) by (destruct o, o2; cbn in EH, E'; try reflexivity; discriminate). subst o2. apply sapp_cancel in E'.
      destruct (IHb b2 (")" +++ r1) (")" +++ r2)) as [-> E2]; try tauto; try (cbn; split; [reflexivity|discriminate]).
      apply sapp_cancel in E2. auto.
    + exfalso. eapply NM. exact E.
    + exfalso. eapply NM. exact E.
  - destruct t2 as [s2|s2|o2 a2 b2|t2|k2]; cbn in W2, E; rewrite ?op_name_is, ?sapp_assoc in E; try symmetry in E.
    + exfalso. eapply (no_prefix s2 r2); [| |exact H2|exact E]; tauto.
    + exfalso. eapply (no_prefix s2 r2); [| |exact H2|exact E]; tauto.
    + exfalso. eapply NM. exact E.
    + apply sapp_cancel in E. destruct (IH t2 r1 r2) as [-> ->]; try tauto. now symmetry.
    + exfalso. apply sapp_cancel in E. destruct W1 as [HB _]. destruct t; try contradiction. cbn in E. rewrite op_name_is, !sapp_assoc in E. eapply lam_not_op. exact E.
  - destruct t2 as [s2|s2|o2 a2 b2|t2|k2]; cbn in W2, E; rewrite ?op_name_is, ?sapp_assoc in E; try symmetry in E.
    + exfalso. eapply (no_prefix s2 r2); [| |exact H2|exact E]; tauto.
    + exfalso. eapply (no_prefix s2 r2); [| |exact H2|exact E]; tauto.
    + exfalso. eapply NM. exact E.
    + exfalso. apply sapp_cancel in E. destruct W2 as [HB _]. destruct t2; try contradiction. cbn in E. rewrite op_name_is, !sapp_assoc in E. symmetry in E. eapply lam_not_op. exact E.
    + apply sapp_cancel in E. cbn in E. injection E as E. destruct (plain_rest_cancel (underscores k2) (underscores k) r2 r1) as [EU ->]; auto using plain_underscores.
      apply underscores_inj in EU. now subst.
Qed.
End Names.

(** * Frames *)
Section Frames.
Context {C F : Type}.
Variable apply : binop -> C -> C -> C.
Variable call : F -> C -> C -> C.
Variable number : string -> C.
Notation frame := (frame C).
Notation parse := (parse apply call number).
Notation add_col := (add_col apply call number).
Notation add_cols := (add_cols apply call number).
Definition extends (df df' : frame) : Prop := forall s c, get df s = Some c -> get df' s = Some c.
Lemma get_app (df df' : frame) s : get (df ++ df') s = match get df s with Some c => Some c | None => get df' s end.
Proof. induction df as [|[n c] df IH]; cbn; [reflexivity|]. destruct (String.eqb n s); auto. Qed.
Lemma get_In (df : frame) s c : get df s = Some c -> In s (List.map fst df).
Proof. induction df as [|[n c'] df IH]; cbn; [discriminate|]. destruct (String.eqb_spec n s) as [->|]; auto. Qed.
Lemma add_col_shape prefix df e df' n : add_col prefix df e = Some (df', n) ->
  starts_with prefix n = true /\ (df' = df \/ get df n = None /\ exists c, df' = df ++ [(n, c)]).
Proof.
  unfold M_AuxCols.add_col. destruct (parse df e) as [[m res]|]; [|discriminate]. intros H. injection H as <- <-.
  set (name := if String.eqb _ _ then _ else _). split.
  - assert (FL : forall fuel x, starts_with prefix x = true -> starts_with prefix (fresh_loop fuel x df) = true).
    { induction fuel as [|f IH]; intros x Hx; cbn; destruct (has df x); auto. apply IH. apply starts_with_iff in Hx. destruct Hx as [t ->].
      apply starts_with_iff. exists (t +++ "_"). apply sapp_assoc. }
    assert (H0 : starts_with prefix (prefix +++ m) = true) by (apply starts_with_iff; eauto).
    unfold name. destruct (String.eqb _ _); auto.
  - unfold has. destruct (get df name) eqn:E; [now left|right]. split; [reflexivity|eauto].
Qed.
Lemma add_col_extends prefix df e df' n : add_col prefix df e = Some (df', n) -> extends df df'.
Proof.
  intros H. apply add_col_shape in H. destruct H as [_ [->|[_ [c ->]]]]; intros s c' Hs; [exact Hs|]. rewrite get_app, Hs. reflexivity.
Qed.
Lemma add_cols_extends prefix es : forall df df' ns, add_cols prefix df es = Some (df', ns) -> extends df df'.
Proof.
  induction es as [|e es IH]; cbn; intros df df' ns H; [injection H as <- <-; intros s c; auto|].
  destruct (add_col prefix df e) as [[df1 n]|] eqn:E; [|discriminate]. destruct (add_cols prefix df1 es) as [[df2 ns']|] eqn:E2; [|discriminate].
  injection H as <- <-. intros s c Hs. eapply IH; [exact E2|]. eapply add_col_extends; eassumption.
Qed.
Lemma add_cols_new prefix es : forall df df' ns, add_cols prefix df es = Some (df', ns) ->
  (forall n, In n ns -> starts_with prefix n = true) /\ (exists new, df' = df ++ new /\ forall n, In n (List.map fst new) -> starts_with prefix n = true /\ In n ns).
Proof.
  induction es as [|e es IH]; cbn; intros df df' ns H; [injection H as <- <-; split; [intros ? []|exists []; rewrite app_nil_r; split; [reflexivity|intros ? []]]|].
  destruct (add_col prefix df e) as [[df1 n]|] eqn:E; [|discriminate]. destruct (add_cols prefix df1 es) as [[df2 ns']|] eqn:E2; [|discriminate].
  injection H as <- <-. apply IH in E2. destruct E2 as [H1 (new & -> & H2)]. apply add_col_shape in E. destruct E as [HN HD]. split.
  - intros m [<-|Hm]; auto.
  - destruct HD as [->|[_ [c ->]]]; [exists new; split; [reflexivity|]; intros m Hm; specialize (H2 m Hm); cbn; tauto|].
    exists ((n, c) :: new). rewrite <- app_assoc. split; [reflexivity|]. cbn. intros m [<-|Hm]; [auto|]. specialize (H2 m Hm). tauto.
Qed.

Notation eval := (eval apply call number).
Hypothesis add_comm : forall a b, apply Add a b = apply Add b a.
Hypothesis mul_comm : forall a b, apply Mul a b = apply Mul b a.
Lemma parse_eval df e n c : parse df e = Some (n, c) -> eval df e = Some c.
Proof.
  revert n c. induction e as [s|t|a IHa f b IHb]; cbn; intros n c.
  - destruct (get df s); [|discriminate]. intros H. now injection H as _ ->.
  - intros H. now injection H as _ ->.
  - destruct (parse df a) as [[n1 c1]|]; [|discriminate]. destruct (parse df b) as [[n2 c2]|]; [|discriminate].
    rewrite (IHa _ _ eq_refl), (IHb _ _ eq_refl). destruct f as [o|g].
    + destruct (commutes o) eqn:EC; [|intros H; now injection H as _ ->]. unfold sort2. cbn. destruct (String.compare n1 n2).
      * destruct (comparable a b); [|discriminate]. intros H. now injection H as _ ->.
      * intros H. now injection H as _ ->.
      * intros H. injection H as _ <-. cbn. destruct o; try discriminate; f_equal; auto.
    + intros H. now injection H as _ ->.
Qed.
Lemma eval_extends df df' e c : extends df df' -> eval df e = Some c -> eval df' e = Some c.
Proof.
  intros HE. revert c. induction e as [s|t|a IHa f b IHb]; cbn; intros c; auto.
  destruct (eval df a) as [x|]; [|discriminate]. destruct (eval df b) as [y|]; [|discriminate]. rewrite (IHa _ eq_refl), (IHb _ eq_refl). auto.
Qed.

Variable prefix : string.
Variable numeric : string -> bool.
Hypothesis prefix_plain : plain prefix = true.
Hypothesis prefix_m : exists p, prefix = String "m" p.
Variable user : frame.
Hypothesis user_fresh : forall s c, get user s = Some c -> starts_with prefix s = false.
Fixpoint val (df : frame) (t : tree) : option C :=
  match t with
  | Col s => get df s
  | Const s => Some (number s)
  | Bin o a b => match val df a, val df b with Some x, Some y => Some (apply o x y) | _, _ => None end
  | Prev t => val df t
  | Lam k => get df (prefix +++ ("lambda" +++ underscores k))
  end.
Lemma val_extends df df' t c : extends df df' -> val df t = Some c -> val df' t = Some c.
Proof.
  intros HE. revert c. induction t; cbn; intros c; auto.
  destruct (val df t1) as [x|]; [|discriminate]. destruct (val df t2) as [y|]; [|discriminate]. rewrite (IHt1 _ eq_refl), (IHt2 _ eq_refl). auto.
Qed.
Definition inv (df : frame) : Prop := forall s c, get df s = Some c ->
  get user s = Some c \/
  (exists t, wf prefix numeric t /\ is_bin t /\ s = prefix +++ pr prefix t /\ val df t = Some c) \/
  (exists k, s = prefix +++ ("lambda" +++ underscores k)).
(** no functions; names of the user's columns plain and not numbers; numbers plain *)
Fixpoint simple (e : aux F) : Prop :=
  match e with
  | AStr s => starts_with prefix s = false -> plain s = true /\ numeric s = false
  | ANum t => plain t = true /\ numeric t = true /\ starts_with prefix t = false
  | ATup a (Op _) b => simple a /\ simple b
  | ATup _ (Fn _) _ => False
  end.
Lemma parse_tree df e n c : inv df -> simple e -> parse df e = Some (n, c) ->
  exists t, wf prefix numeric t /\ pr prefix t = n /\ val df t = Some c /\ (match e with ATup _ _ _ => is_bin t | _ => True end).
Proof.
  intros HI. revert n c. induction e as [s|t|a IHa f b IHb]; intros n c HS HP; cbn in HS.
  - cbn in HP. destruct (get df s) as [c'|] eqn:E; [|discriminate]. injection HP as <- <-. destruct (HI s c' E) as [U|[(t & W & B & -> & V)|(k & ->)]].
    + destruct (HS (user_fresh s c' U)) as [P N]. exists (Col s). cbn. repeat split; auto. eauto.
    + exists (Prev t). cbn. auto.
    + exists (Lam k). cbn. auto.
  - cbn in HP. injection HP as <- <-. exists (Const t). cbn. tauto.
  - cbn in HP. destruct (parse df a) as [[n1 c1]|]; [|discriminate]. destruct (parse df b) as [[n2 c2]|]; [|discriminate].
    destruct f as [o|g]; [|contradiction]. destruct HS as [Ha Hb].
    destruct (IHa _ _ Ha eq_refl) as (t1 & W1 & P1 & V1 & _). destruct (IHb _ _ Hb eq_refl) as (t2 & W2 & P2 & V2 & _).
    assert (K : (n, c) = (op_name o n1 n2, apply o c1 c2) \/ (n, c) = (op_name o n2 n1, apply o c2 c1)).
    { destruct (commutes o) eqn:EC; [|injection HP as <- <-; auto]. unfold sort2 in HP. cbn in HP. destruct (String.compare n1 n2).
      - destruct (comparable a b); [|discriminate]. injection HP as <- <-. auto.
      - injection HP as <- <-. auto.
      - injection HP as <- <-. auto. }
    destruct K as [K|K]; injection K as -> ->; [exists (Bin o t1 t2)|exists (Bin o t2 t1)]; cbn; rewrite P1, P2, V1, V2; auto.
Qed.
Lemma fresh_loop_spec (df : frame) fuel : forall k, exists j, fresh_loop fuel (prefix +++ ("lambda" +++ underscores k)) df = prefix +++ ("lambda" +++ underscores (k + j)) /\
  (j <= fuel /\ (forall i, i < j -> has df (prefix +++ ("lambda" +++ underscores (k + i))) = true) /\ (j < fuel -> has df (prefix +++ ("lambda" +++ underscores (k + j))) = false)
   /\ (j = fuel -> has df (prefix +++ ("lambda" +++ underscores (k + j))) = true \/ has df (prefix +++ ("lambda" +++ underscores (k + j))) = false)).
Proof.
  induction fuel as [|f IH]; intros k; cbn [fresh_loop]; destruct (has df (prefix +++ ("lambda" +++ underscores k))) eqn:E.
  - exists 0. rewrite Nat.add_0_r. repeat split; auto; intros; lia.
  - exists 0. rewrite Nat.add_0_r. repeat split; auto; intros; lia.
  - assert (U : (prefix +++ ("lambda" +++ underscores k)) +++ "_" = prefix +++ ("lambda" +++ underscores (S k))).
    { rewrite !sapp_assoc. apply (f_equal (fun z => prefix +++ ("lambda" +++ z))). clear. induction k; [reflexivity|]. cbn [underscores] in *. now rewrite sapp_assoc, IHk. }
    destruct (IH (S k)) as (j & E1 & E2 & E3 & E4 & E5). exists (S j). rewrite U. rewrite E1. rewrite <- Nat.add_succ_comm. split; [reflexivity|]. split; [lia|]. split; [|split].
    + intros [|i] Hi; [now rewrite Nat.add_0_r|]. rewrite <- Nat.add_succ_comm. apply E3. lia.
    + intros Hj. apply E4. lia.
    + intros Hj. apply E5. lia.
  - exists 0. rewrite Nat.add_0_r. repeat split; auto; intros; lia.
Qed.
Lemma fresh_name (df : frame) : exists k, fresh_loop (List.length df) (prefix +++ "lambda") df = prefix +++ ("lambda" +++ underscores k) /\ get df (prefix +++ ("lambda" +++ underscores k)) = None.
Proof.
  destruct (fresh_loop_spec df (List.length df) 0) as (j & E & E2 & E3 & E4 & E5). cbn [underscores] in E. rewrite sapp_nil in E. cbn [plus] in *.
  exists j. split; [exact E|]. destruct (get df (prefix +++ ("lambda" +++ underscores j))) eqn:G; [|reflexivity]. exfalso.
  assert (HJ : has df (prefix +++ ("lambda" +++ underscores j)) = true) by (unfold has; now rewrite G).
  destruct (Nat.eq_dec j (List.length df)) as [->|N]; [|rewrite E4 in HJ by lia; discriminate].
  set (names := List.map (fun k => prefix +++ ("lambda" +++ underscores k)) (seq 0 (S (List.length df)))).
  assert (ND : NoDup names).
  { unfold names. apply FinFun.Injective_map_NoDup; [|apply seq_NoDup]. intros x y H. apply sapp_cancel in H. cbn in H. injection H as H. now apply underscores_inj. }
  assert (IN : incl names (List.map fst df)).
  { intros s Hs. unfold names in Hs. apply in_map_iff in Hs. destruct Hs as (i & <- & Hi). apply in_seq in Hi.
    assert (HH : has df (prefix +++ ("lambda" +++ underscores i)) = true) by (destruct (Nat.eq_dec i (List.length df)) as [->|]; [exact HJ|apply E3; lia]).
    unfold has in HH. clear G. destruct (get df (prefix +++ ("lambda" +++ underscores i))) eqn:G2; [|discriminate]. eapply get_In. exact G2. }
  apply (NoDup_incl_length ND) in IN. unfold names in IN. rewrite !map_length, seq_length in IN. lia.
Qed.
Definition fits (e : aux F) : Prop := match e with ATup a _ b => simple a /\ simple b | _ => False end.
Lemma inv_snoc df n c : inv df -> get df n = None ->
  ((exists t, wf prefix numeric t /\ is_bin t /\ n = prefix +++ pr prefix t /\ val df t = Some c) \/ (exists k, n = prefix +++ ("lambda" +++ underscores k))) ->
  inv (df ++ [(n, c)]).
Proof.
  intros HI HG HN s c' Hs. assert (EX : extends df (df ++ [(n, c)])) by (intros x y Hx; rewrite get_app, Hx; reflexivity).
  rewrite get_app in Hs. destruct (get df s) as [c0|] eqn:G.
  - injection Hs as <-. destruct (HI s c0 G) as [U|[(t & W & B & E & V)|K]]; [now left| |now right; right].
    right. left. exists t. repeat split; auto. eapply val_extends; eauto.
  - cbn in Hs. destruct (String.eqb_spec n s) as [->|]; [|discriminate]. injection Hs as <-. destruct HN as [(t & W & B & E & V)|K]; [|now right; right].
    right. left. exists t. repeat split; auto. eapply val_extends; eauto.
Qed.
Lemma add_col_correct df e df' n : inv df -> fits e -> add_col prefix df e = Some (df', n) ->
  inv df' /\ exists c, get df' n = Some c /\ eval df e = Some c.
Proof.
  intros HI HF. unfold M_AuxCols.add_col. destruct (parse df e) as [[m res]|] eqn:EP; [|discriminate]. intros H. injection H as <- <-.
  rewrite (parse_eval _ _ _ _ EP). destruct e as [| |a f b]; try contradiction. destruct HF as [Fa Fb]. destruct f as [o|g].
  - assert (HS : simple (ATup a (Op o) b)) by (split; auto). destruct (parse_tree df _ m res HI HS EP) as (t & W & P & V & B).
    assert (NL : String.eqb (prefix +++ m) (prefix +++ "lambda") = false).
    { apply String.eqb_neq. intros H. apply sapp_cancel in H. subst m. destruct t; try contradiction. cbn in H. rewrite op_name_is in H. destruct o0; discriminate. }
    rewrite NL. unfold has. destruct (get df (prefix +++ m)) as [c'|] eqn:G.
    + split; [exact HI|]. exists c'. split; [exact G|]. destruct (HI _ _ G) as [U|[(t' & W' & B' & E' & V')|(k & E')]].
      * exfalso. pose proof (user_fresh _ _ U) as Q. assert (starts_with prefix (prefix +++ m) = true) by (apply starts_with_iff; eauto). congruence.
      * apply sapp_cancel in E'. assert (t = t').
        { apply (pr_inj prefix numeric prefix_plain prefix_m t t' "" ""); auto; try exact I. rewrite !sapp_nil. congruence. }
        subst t'. congruence.
      * exfalso. apply sapp_cancel in E'. subst m. destruct t; try contradiction. cbn in E'. rewrite op_name_is in E'. destruct o0; discriminate.
    + split.
      * apply inv_snoc; auto. left. exists t. rewrite P. auto.
      * exists res. rewrite get_app, G. cbn. rewrite String.eqb_refl. auto.
  - cbn in EP. destruct (parse df a) as [[n1 c1]|]; [|discriminate]. destruct (parse df b) as [[n2 c2]|]; [|discriminate]. injection EP as <- <-.
    rewrite String.eqb_refl. destruct (fresh_name df) as (k & EK & GK). rewrite EK. unfold has. rewrite GK. split.
    + apply inv_snoc; auto. right. now exists k.
    + eexists. rewrite get_app, GK. cbn. rewrite String.eqb_refl. auto.
Qed.
Lemma add_cols_correct es : forall df df' ns, inv df -> Forall fits es -> add_cols prefix df es = Some (df', ns) ->
  forall i e n, nth_error es i = Some e -> nth_error ns i = Some n -> exists c, get df' n = Some c /\ eval df' e = Some c.
Proof.
  induction es as [|e0 es IH]; cbn; intros df df' ns HI HF H i e n He Hn; [destruct i; discriminate|].
  inversion HF as [|? ? F1 F2]; subst.
  destruct (add_col prefix df e0) as [[df1 n1]|] eqn:E; [|discriminate]. destruct (add_cols prefix df1 es) as [[df2 ns']|] eqn:E2; [|discriminate]. injection H as <- <-.
  destruct (add_col_correct df e0 df1 n1 HI F1 E) as [HI1 (c & G1 & V1)]. destruct i as [|i].
  - cbn in He, Hn. injection He as <-. injection Hn as <-. pose proof (add_cols_extends _ _ _ _ _ E2) as X. exists c. split; [now apply X|].
    eapply eval_extends; [exact X|]. eapply eval_extends; [|exact V1]. eapply add_col_extends; exact E.
  - cbn in He, Hn. eapply IH; eauto.
Qed.
End Frames.
