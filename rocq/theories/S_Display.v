(** What a cell of the display is to say. *)
From Coq Require Import String List Bool Reals.
From Verif Require Import M_Metric M_Display.
Import ListNotations.
Open Scope string_scope.

Definition quote : string := String (Ascii.ascii_of_nat 34) "".
(** the cell is a <div> of this CSS class *)
Definition shown_as (cls html : string) : Prop :=
  String.prefix ("<div class=" ++ quote ++ cls ++ quote ++ ">") html = true.
Definition good := "ci-display-good-change ci-display-cell".
Definition bad := "ci-display-bad-change ci-display-cell".
Definition neutral := "ci-display-cell".
Definition above (lo hi : R) : Prop := forall x, (lo <= x <= hi)%R -> (0 < x)%R.
Definition below (lo hi : R) : Prop := forall x, (lo <= x <= hi)%R -> (x < 0)%R.

(** ** The table *)
Section T.
  Variables (has_exp : bool) (ctrl : control) (show_control show_value : bool).
  Definition a_control (r : lrow) : Prop := has_exp = true /\ is_control ctrl (l_exp r) = true.
  (** rows that are not hidden *)
  Definition seen (r : lrow) : Prop := show_control = true \/ ~ a_control r.
  (** the numbers shown for a row: for controls no change, with controls hidden no value unless asked for *)
  Definition numbers (r : lrow) (q : quad) : Prop :=
    q_lower q = q_lower (l_quad r) /\ q_upper q = q_upper (l_quad r) /\
    (a_control r -> q_ratio q = NaN) /\ (~ a_control r -> q_ratio q = q_ratio (l_quad r)) /\
    q_value q = (if show_control || show_value then q_value (l_quad r) else NaN).
  (** the slice and the experiment a row is about *)
  Definition ident (r : lrow) : list cell * cell := (l_dims r, if has_exp then l_exp r else CNull).
  (** the row of the table with this key is about the slice and experiment of [r] *)
  Definition about (key : list cell) (r : lrow) : Prop :=
    firstn (List.length (l_dims r)) key = l_dims r /\ (has_exp = true -> last key CNull = l_exp r).
  (** the columns displayed *)
  Definition wanted (metric_order : list string) (m : string) : Prop := metric_order = [] \/ In m metric_order.
  (** every row is about a known slice and experiment with a known control *)
  Definition complete (rows : list lrow) : Prop :=
    (exists n, forall r, In r rows -> List.length (l_dims r) = n) /\
    forall r, In r rows -> ~ In CNull (l_dims r) /\
      (has_exp = true -> l_exp r <> CNull /\ (ctrl = CtrlNone \/ control_id ctrl (l_exp r) <> CNull)).
End T.
