(** C82: merging one WITH clause into another. *)
From Coq Require Import List Bool String Ascii Arith NArith Lia.
From Verif Require Import M_SqlText M_SqlColumns M_SqlExtend S_SqlExtend L_SqlExtend.
Import ListNotations.
Open Scope string_scope.
Open Scope list_scope.

(** [re.sub] as modelled: exactly the whole words equal to the old name change; nothing else of the text does. *)
Theorem C82_whole_words : forall old new text, is_word new ->
  pieces (sub_word old new text) = List.map (fun p => match p with Word w => if string_dec w old then Word new else Word w | Other c => Other c end) (pieces text).
Proof. exact pieces_sub. Qed.
(** For all names that are words: extend terminates, keeps every table that was there (name, text and meaning), only appends, gives every table of the
    other clause a name, and never uses a name twice. *)
Theorem C82_keeps : forall self other,
  NoDup (names self) -> (forall a, In a (names self) -> is_word a) -> (forall a, In a (names other) -> is_word a) ->
  exists added ns, ds_extend (as_tables self) other = Ok (as_tables (self ++ added), ns) /\
    List.length ns = List.length other /\ NoDup (names (self ++ added)) /\
    forall a, In a (names self) -> table_named a (meanings (self ++ added)) = table_named a (meanings self).
Proof.
  intros self other HN HW HT. destruct (run_shape (List.length other) self other HN HW HT eq_refl) as (added & ns & E & Hl & HN' & _).
  exists added, ns. split; [exact E|]. split; [exact Hl|]. split; [exact HN'|]. intros a Ha. now apply meanings_prefix.
Qed.
Print Assumptions C82_keeps.
(** Every table of the other clause keeps its meaning under the name it gets, when
    - no text of the other clause mentions a name of the first clause that is not one of its own tables,
    - a new name that differs from the old one is neither a table of the other clause nor a word of its texts,
    - a name that is new to the first clause is no word of its texts. *)
Theorem C82_meaning : forall self other d ns, well_named self -> well_named other ->
  ds_extend (as_tables self) other = Ok (as_tables d, ns) ->
  (forall b t w, In (b, t) other -> mentions t w -> In w (names self) -> In w (names other)) ->
  (forall a n, In (a, n) (combine (names other) ns) -> a <> n -> ~ In n (names other) /\ forall b t, In (b, t) other -> ~ mentions t n) ->
  (forall a n, In (a, n) (combine (names other) ns) -> ~ In n (names self) -> forall b t, In (b, t) self -> ~ mentions t n) ->
  forall a n, In (a, n) (combine (names other) ns) -> table_named a (meanings other) <> None /\ table_named n (meanings d) = table_named a (meanings other).
Proof. intros self other d ns H1 H2 E C1 C2 C3. now apply (extend_means self other d ns H1 H2 C1 E). Qed.
Print Assumptions C82_meaning.
(** A query with a WITH clause used as the FROM of a query without one: the FROM names a table that means the inner query, and the inner tables mean what
    they did. *)
Theorem C82_nested : forall inner text, well_named inner -> NoDup (List.map snd inner) ->
  exists a d, nest [] inner text = Ok (a, as_tables d) /\ table_named a (meanings d) = Some (expand (meanings inner) text) /\
    forall k, In k (names inner) -> table_named k (meanings d) = table_named k (meanings inner).
Proof. exact nest_nothing. Qed.
Print Assumptions C82_nested.

(** ** Where each condition is needed *)
(** A new name that is a name of the other clause: B read A and A_1, now it reads A_2 twice. *)
Theorem C82_new_name_taken_refuted : let self := [("A", "SELECT 0")] in let other := [("A", "SELECT 1"); ("A_1", "SELECT 2"); ("B", "SELECT * FROM A JOIN A_1")] in
  exists d, ds_extend (as_tables self) other = Ok (as_tables d, ["A_1"; "A_2"; "B"]) /\ In ("B", "SELECT * FROM A_2 JOIN A_2") d /\
    table_named "B" (meanings d) <> table_named "B" (meanings other).
Proof.
  exists [("A", "SELECT 0"); ("A_1", "SELECT 1"); ("A_2", "SELECT 2"); ("B", "SELECT * FROM A_2 JOIN A_2")]. split; [vm_compute; reflexivity|].
  split; [cbn; auto|]. vm_compute. discriminate.
Qed.
(** A base table with the name of a table of the first clause. *)
Theorem C82_base_table_refuted : let self := [("A", "SELECT 0")] in let other := [("B", "SELECT * FROM A")] in
  exists d, ds_extend (as_tables self) other = Ok (as_tables d, ["B"]) /\ table_named "B" (meanings d) <> table_named "B" (meanings other).
Proof. exists [("A", "SELECT 0"); ("B", "SELECT * FROM A")]. split; [vm_compute; reflexivity|]. vm_compute. discriminate. Qed.
(** A name new to the first clause that one of its texts mentions: the base table A is read in place of the WITH table A. *)
Theorem C82_shared_text_refuted : let self := [("K", "SELECT * FROM A")] in let other := [("A", "SELECT 1"); ("B", "SELECT * FROM A")] in
  exists d, ds_extend (as_tables self) other = Ok (as_tables d, ["A"; "K"]) /\ table_named "K" (meanings d) <> table_named "B" (meanings other).
Proof. exists [("K", "SELECT * FROM A"); ("A", "SELECT 1")]. split; [vm_compute; reflexivity|]. vm_compute. discriminate. Qed.
(** The outer query already has a table NoNameTable: the FROM is not renamed along and reads that table. *)
Theorem C82_nested_from_refuted : let inner := [("A", "SELECT 1")] in let text := "SELECT * FROM A" in
  exists d, nest (as_tables [("NoNameTable", "SELECT 0")]) inner text = Ok ("NoNameTable", as_tables d) /\
    table_named "NoNameTable" (meanings d) <> Some (expand (meanings inner) text).
Proof.
  exists [("NoNameTable", "SELECT 0"); ("A", "SELECT 1"); ("NoNameTable_1", "SELECT * FROM A")]. split; [vm_compute; reflexivity|]. vm_compute. discriminate.
Qed.

(** ** A case: A is there with another text, C with the same text under another name *)
Definition self1 : clause := [("A", "SELECT x FROM T"); ("D", "SELECT z FROM T")].
Definition other1 : clause := [("A", "SELECT y FROM T"); ("C", "SELECT z FROM T"); ("B", "SELECT A.y FROM A JOIN C")].
Definition merged1 : clause := [("A", "SELECT x FROM T"); ("D", "SELECT z FROM T"); ("A_1", "SELECT y FROM T"); ("B", "SELECT A_1.y FROM A_1 JOIN D")].
Lemma well_named_check d : NoDup (names d) -> (forall a, In a (names d) -> is_word a) ->
  (forall k a t, nth_error d k = Some (a, t) -> forall w, mentions t w -> ~ In w (a :: names (skipn (S k) d))) -> well_named d.
Proof.
  intros H1 H2 H3. split; [exact H1|]. split; [exact H2|]. intros d1 a t d2 w E Hw. specialize (H3 (List.length d1) a t). subst d.
  rewrite nth_error_app2, Nat.sub_diag in H3 by lia. specialize (H3 eq_refl w Hw).
  replace (skipn (S (List.length d1)) (d1 ++ (a, t) :: d2)) with d2 in H3; [exact H3|].
  rewrite skipn_app, skipn_all2 by lia. replace (S (List.length d1) - List.length d1) with 1 by lia. reflexivity.
Qed.
Ltac words := intros a Ha; cbn in Ha; repeat (destruct Ha as [<-|Ha]; [apply wordy_is; split; [discriminate|reflexivity]|]); destruct Ha.
Ltac mentioned H := vm_compute in H; repeat (destruct H as [H|H]; [try discriminate; injection H as <-|]); try (now destruct H).
Ltac well := apply well_named_check; [repeat constructor; cbn; intuition discriminate|words|
  intros [|[|[|k]]] a t E; cbn in E; try (destruct k; discriminate); try discriminate; injection E as <- <-; intros w Hw Hi; mentioned Hw; cbn in Hi; intuition discriminate].
Example C82_case : well_named self1 /\ well_named other1 /\ ds_extend (as_tables self1) other1 = Ok (as_tables merged1, ["A_1"; "D"; "B"]) /\
  (forall b t w, In (b, t) other1 -> mentions t w -> In w (names self1) -> In w (names other1)) /\
  (forall a n, In (a, n) (combine (names other1) ["A_1"; "D"; "B"]) -> a <> n -> ~ In n (names other1) /\ forall b t, In (b, t) other1 -> ~ mentions t n) /\
  (forall a n, In (a, n) (combine (names other1) ["A_1"; "D"; "B"]) -> ~ In n (names self1) -> forall b t, In (b, t) self1 -> ~ mentions t n) /\
  table_named "B" (meanings merged1) = table_named "B" (meanings other1).
Proof.
  split; [well|]. split; [well|]. split; [vm_compute; reflexivity|]. split; [|split; [|split; [|vm_compute; reflexivity]]].
  - intros b t w Hb Hw Hi. cbn in Hb. repeat (destruct Hb as [Hb|Hb]; [injection Hb as <- <-; mentioned Hw; cbn in Hi |- *; intuition discriminate|]). destruct Hb.
  - intros a n Hn Ha. cbn in Hn. repeat (destruct Hn as [Hn|Hn]; [injection Hn as <- <-; try congruence; (split; [cbn; intuition discriminate|]);
      intros b t Hb Hw; cbn in Hb; repeat (destruct Hb as [Hb|Hb]; [injection Hb as <- <-; mentioned Hw|]); destruct Hb|]). destruct Hn.
  - intros a n Hn Ha b t Hb Hw. cbn in Hn. repeat (destruct Hn as [Hn|Hn]; [injection Hn as <- <-;
      cbn in Hb; repeat (destruct Hb as [Hb|Hb]; [injection Hb as <- <-; mentioned Hw|]); destruct Hb|]). destruct Hn.
Qed.
