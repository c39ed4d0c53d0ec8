(** C44, C45: temporary columns. *)
From Coq Require Import String Ascii List Bool Arith NArith Lia.
From Verif Require Import M_AuxCols S_AuxCols L_AuxCols.
Import ListNotations.
Open Scope string_scope.
Open Scope list_scope.
(** C44: get_unique_prefix terminates; the result is "meterstick_tmp:" and the fewest further colons with which
    no column name starts. *)
Theorem C44_prefix_is_fresh : forall columns, exists k, let p := ("meterstick_tmp:" ++ colons k)%string in
  unique_prefix columns = Some p /\ (forall c t, In c columns -> c <> (p ++ t)%string) /\
  (forall j, j < k -> exists c t, In c columns /\ c = ("meterstick_tmp:" ++ colons j ++ t)%string).
Proof.
  intros columns. destruct (prefix_loop_spec (S (fold_right (fun c m => Nat.max (String.length c) m) 0 columns)) "meterstick_tmp:" columns) as (k & E1 & E2 & E3); [lia|].
  exists k. split; [exact E1|]. split.
  - intros c t Hc ->. specialize (E2 _ Hc). rewrite (proj2 (starts_with_iff _ _)) in E2; [discriminate|eauto].
  - intros j Hj. destruct (E3 j Hj) as (c & Hc & Hp). apply starts_with_iff in Hp. destruct Hp as [t ->]. exists ("meterstick_tmp:" ++ colons j ++ t)%string, t. rewrite sapp_assoc in Hc. auto.
Qed.
Print Assumptions C44_prefix_is_fresh.
(** Adding auxiliary columns keeps every column and only adds columns whose names no original column has. *)
Theorem C44_columns_are_kept : forall C F (apply : binop -> C -> C -> C) (call : F -> C -> C -> C) number df prefix es df' names,
  unique_prefix (List.map fst df) = Some prefix -> add_cols apply call number prefix df es = Some (df', names) ->
  (forall s c, get df s = Some c -> get df' s = Some c) /\
  (exists new, df' = df ++ new /\ forall n, In n (List.map fst new) -> In n names) /\
  (forall n, In n names -> ~ In n (List.map fst df)).
Proof.
  intros C F apply call number df prefix es df' names HP HA. split; [|split].
  - exact (add_cols_extends _ _ _ _ _ _ _ _ HA).
  - destruct (add_cols_new _ _ _ _ _ _ _ _ HA) as [_ (new & E & H)]. exists new. split; [exact E|]. intros n Hn. now apply H.
  - intros n Hn Hd. destruct (add_cols_new _ _ _ _ _ _ _ _ HA) as [H _]. specialize (H n Hn). apply starts_with_iff in H. destruct H as [t ->].
    destruct (C44_prefix_is_fresh (List.map fst df)) as (k & E & HF & _). rewrite E in HP. injection HP as <-. now apply (HF _ t Hd).
Qed.
Print Assumptions C44_columns_are_kept.
Example C44_example : unique_prefix ["x"; "meterstick_tmp::y"] = Some "meterstick_tmp:::".
Proof. reflexivity. Qed.

(** C45.  A name is plain if it has no space, parenthesis or comma. *)
Definition plain_name (s : string) : Prop := forall c, In c (list_ascii_of_string s) -> ~ In c [" "; "("; ")"; ","]%char.
Lemma plain_name_iff s : plain_name s <-> plain s = true.
Proof.
  unfold plain_name. induction s as [|x s IH]; cbn [plain list_ascii_of_string]; [split; [reflexivity|intros _ c []]|].
  rewrite andb_true_iff, <- IH, negb_true_iff. split.
  - intros H. split; [|intros c Hc; apply H; now right]. unfold special. destruct (existsb _ _) eqn:E; [|reflexivity]. exfalso.
    apply existsb_exists in E. destruct E as (c & Hc & E). apply Ascii.eqb_eq in E. subst c. apply (H x); [now left|exact Hc].
  - intros [H1 H2] c [<-|Hc]; [|now apply H2]. intros Hx. unfold special in H1. assert (existsb (Ascii.eqb x) [" "; "("; ")"; ","]%char = true); [|congruence].
    apply existsb_exists. exists x. split; [exact Hx|apply Ascii.eqb_refl].
Qed.
(** What the requested columns may mention: columns of the original frame with plain names that are not numbers,
    columns returned for earlier requests, numbers; functions only outermost. *)
Inductive requested {C F} (user : frame C) (prefix : string) (is_number : string -> bool) : aux F -> Prop :=
| R_user s : In s (List.map fst user) -> plain_name s -> is_number s = false -> requested user prefix is_number (AStr s)
| R_earlier t : requested user prefix is_number (AStr (prefix ++ t))
| R_number t : plain_name t -> is_number t = true -> (forall u, t <> (prefix ++ u)%string) -> requested user prefix is_number (ANum t)
| R_op a o b : requested user prefix is_number a -> requested user prefix is_number b -> requested user prefix is_number (ATup a (Op o) b).
Inductive request {C F} (user : frame C) (prefix : string) (is_number : string -> bool) : aux F -> Prop :=
| Request a f b : requested user prefix is_number a -> requested user prefix is_number b -> request user prefix is_number (ATup a f b).
(** Every column returned holds the value of the expression requested - whatever was added before, with all columns
    of a frame and all intermediate columns sharing the prefix. *)
Theorem C45_contents_partial : forall C F (apply : binop -> C -> C -> C) (call : F -> C -> C -> C) number is_number user prefix es df names,
  (forall a b, apply Add a b = apply Add b a) -> (forall a b, apply Mul a b = apply Mul b a) ->
  unique_prefix (List.map fst user) = Some prefix -> Forall (request user prefix is_number) es ->
  add_cols apply call number prefix user es = Some (df, names) ->
  forall i e n, nth_error es i = Some e -> nth_error names i = Some n ->
  exists c, get df n = Some c /\ eval apply call number df e = Some c.
Proof.
  intros C F apply call number is_number user prefix es df names HA HM HP HR H i e n He Hn.
  destruct (C44_prefix_is_fresh (List.map fst user)) as (k & E & HF & _). rewrite E in HP. injection HP as HP.
  assert (PP : plain prefix = true). { rewrite <- HP. change (plain ("meterstick_tmp:" ++ colons k)%string = true). rewrite plain_app. cbn. clear. induction k; [reflexivity|exact IHk]. }
  assert (PM : exists p, prefix = String "m" p) by (rewrite <- HP; eexists; reflexivity).
  assert (SF : forall s, (forall u, s <> (prefix ++ u)%string) -> starts_with prefix s = false).
  { intros s Hs. destruct (starts_with prefix s) eqn:Q; [|reflexivity]. apply starts_with_iff in Q. destruct Q as [t ->]. now destruct (Hs t). }
  assert (UF : forall s c, get user s = Some c -> starts_with prefix s = false).
  { intros s c G. apply SF. intros u. rewrite <- HP. apply HF. now apply get_In in G. }
  assert (SR : forall x : aux F, requested user prefix is_number x -> simple prefix is_number x).
  { intros x. induction 1 as [s Hs P N|t|t P N U|a o b Ra IHa Rb IHb]; cbn.
    - intros _. split; [now apply plain_name_iff|exact N].
    - intros Q. rewrite (proj2 (starts_with_iff _ _)) in Q; [discriminate|eauto].
    - repeat split; [now apply plain_name_iff|exact N|now apply SF].
    - auto. }
  eapply (add_cols_correct apply call number HA HM prefix is_number PP PM user UF es user df names); eauto.
  - intros s c G. now left.
  - eapply Forall_impl; [|exact HR]. intros x [a f b Ra Rb]. cbn. auto.
Qed.
Print Assumptions C45_contents_partial.
(** An instance: Dot(x, y), Dot(y, x), the square of x, and a product with the first column. *)
Definition ap (o : binop) (a b : nat) : nat := match o with Add => a + b | Sub => a - b | Mul => a * b | Div => Nat.div a b | Pow => Nat.pow a b end.
Definition num (s : string) : nat := if String.eqb s "2" then 2 else 0.
Definition fapp (f : nat) (a b : nat) : nat := f + a + b.
Definition ex_user : frame nat := [("x", 3); ("y", 5); ("w", 7)].
Definition ex_es : list (aux nat) :=
  [ATup (AStr "x") (Op Mul) (AStr "y"); ATup (AStr "y") (Op Mul) (AStr "x"); ATup (AStr "x") (Op Pow) (ANum "2");
   ATup (AStr "meterstick_tmp:(x * y)") (Op Mul) (AStr "w"); ATup (AStr "x") (Fn 1) (AStr "y"); ATup (AStr "x") (Fn 9) (AStr "y")].
Example C45_example : exists df names, add_cols ap fapp num "meterstick_tmp:" ex_user ex_es = Some (df, names) /\
  Forall (request ex_user "meterstick_tmp:" (String.eqb "2")) ex_es /\ List.map (get df) names = [Some 15; Some 15; Some 9; Some 105; Some 9; Some 17].
Proof.
  eexists. eexists. split; [vm_compute; reflexivity|]. split; [|vm_compute; reflexivity].
  assert (U : forall s, In s ["x"; "y"; "w"] -> @requested nat nat ex_user "meterstick_tmp:" (String.eqb "2") (AStr s)).
  { intros s Hs. apply R_user; [exact Hs| |]; destruct Hs as [<-|[<-|[<-|[]]]]; try reflexivity; apply plain_name_iff; reflexivity. }
  repeat apply Forall_cons; try apply Forall_nil; constructor; try (apply U; cbn; tauto).
  - apply R_number; [apply plain_name_iff; reflexivity|reflexivity|intros u; discriminate].
  - exact (@R_earlier nat nat ex_user "meterstick_tmp:" (String.eqb "2") "(x * y)").
Qed.
(** Without those restrictions the claim fails: names with spaces, ... *)
Definition wrong (user : frame nat) (es : list (aux nat)) : Prop := exists df names i e n c c',
  unique_prefix (List.map fst user) = Some "meterstick_tmp:" /\ add_cols ap fapp num "meterstick_tmp:" user es = Some (df, names) /\
  nth_error es i = Some e /\ nth_error names i = Some n /\ get df n = Some c /\ eval ap fapp num df e = Some c' /\ c <> c'.
Theorem C45_spaces_refuted : wrong [("a", 2); ("b * c", 3); ("a * b", 5); ("c", 7)] [ATup (AStr "a") (Op Mul) (AStr "b * c"); ATup (AStr "a * b") (Op Mul) (AStr "c")].
Proof. do 2 eexists. exists 1. do 4 eexists. repeat split; try (vm_compute; reflexivity). discriminate. Qed.
(** ... a column named like a number, ... *)
Theorem C45_number_refuted : wrong [("x", 3); ("2", 4)] [ATup (AStr "x") (Op Pow) (ANum "2"); ATup (AStr "x") (Op Pow) (AStr "2")].
Proof. do 2 eexists. exists 1. do 4 eexists. repeat split; try (vm_compute; reflexivity). discriminate. Qed.
(** ... two functions inside expressions. *)
Theorem C45_nested_function_refuted : wrong [("x", 3); ("y", 4)]
  [ATup (ATup (AStr "x") (Fn 1) (AStr "y")) (Op Sub) (AStr "y"); ATup (ATup (AStr "x") (Fn 9) (AStr "y")) (Op Sub) (AStr "y")].
Proof. do 2 eexists. exists 1. do 4 eexists. repeat split; try (vm_compute; reflexivity). discriminate. Qed.
(** And a product of a computed expression with itself raises: sorting the operands compares two Series. *)
Theorem C45_square_refuted : forall C F (apply : binop -> C -> C -> C) (call : F -> C -> C -> C) number df prefix a f b,
  add_col apply call number prefix df (ATup (ATup a f b) (Op Mul) (ATup a f b)) = None.
Proof.
  intros. unfold add_col.
  assert (E : parse apply call number df (ATup (ATup a f b) (Op Mul) (ATup a f b)) = None); [|now rewrite E].
  set (e := ATup a f b). change (parse apply call number df (ATup e (Op Mul) e)) with
    (match parse apply call number df e, parse apply call number df e with
     | Some x, Some y => match sort2 e e x y with Some (x', y') => Some (op_name Mul (fst x') (fst y'), apply Mul (snd x') (snd y')) | None => None end
     | _, _ => None end).
  destruct (parse apply call number df e) as [[n c]|]; [|reflexivity]. unfold sort2. cbn [fst].
  assert (R : forall s, String.compare s s = Eq) by (induction s as [|x s IH]; [reflexivity|]; cbn; unfold Ascii.compare; rewrite N.compare_refl; exact IH).
  now rewrite R.
Qed.
Print Assumptions C45_square_refuted.
