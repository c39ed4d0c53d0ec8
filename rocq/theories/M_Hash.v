(** Equality of cache keys: CacheKey.__eq__ and __hash__ (utils.py 403-415) on top of Python's
    hash of strings, numbers and tuples.  Key, slice values and extra_info are hashed like the
    fingerprint.  The hash of strings and tuples is arbitrary; for integers CPython's is modelled:
    the residue modulo 2^61 - 1 with the sign of the number, and -2 in place of -1. *)
From Coq Require Import List String ZArith QArith Bool.
From Verif Require Import M_Metric M_Cache.
Import ListNotations.
Open Scope string_scope.
Open Scope list_scope.

Definition py_hash_int (z : Z) : Z :=
  let r := (Z.sgn z * (Z.abs z mod (2 ^ 61 - 1)))%Z in if Z.eqb r (-1) then (-2)%Z else r.

(** [H]: hash values. [hnum] turns the hash of an integer into one. *)
Record hashing (H : Type) := Hashing {
  hstr : string -> H; htuple : list H -> H; hnum : Z -> H; hrat : Q -> H; hnone : H; heqb : H -> H -> bool }.
Arguments hstr {H} _. Arguments htuple {H} _. Arguments hnum {H} _. Arguments hrat {H} _. Arguments hnone {H} _. Arguments heqb {H} _.

Section Hash.
  Context {H : Type} (h : hashing H).
  Definition hint (z : Z) : H := hnum h (py_hash_int z).
  Definition hcell (c : cell) : H :=
    match c with CNull => hnone h | CStr s => hstr h s | CNum z => hint z end.
  (** hash(True) = 1; a rational with denominator 1 hashes like the integer. *)
  Fixpoint hfval (v : fval) : H :=
    match v with
    | FStr s => hstr h s
    | FBool b => hint (if b then 1 else 0)
    | FNum z => hint z
    | FRat q => let r := Qred q in if Pos.eqb (Qden r) 1 then hint (Qnum r) else hrat h r
    | FCell c => hcell c
    | FTup l => htuple h (map hfval l)
    | FFp l => htuple h (map (fun p => htuple h [hstr h (fst p); hfval (snd p)]) l)
    end.
  (** hash((metric, key, split_by, slice_val, where, extra_info)) with extra_info = () *)
  Definition hkey (k : ckey) : H :=
    htuple h [ hfval (k_fp k);
               match k_raw k with None => hnone h | Some r => hstr h r end;
               htuple h (map (hstr h) (k_split k));
               htuple h (map (fun p => htuple h [hstr h (fst p); hcell (snd p)]) (k_slice k));
               htuple h (map (hstr h) (k_where k));
               htuple h [] ].
  Definition keq_by_hash (k1 k2 : ckey) : bool := heqb h (hkey k1) (hkey k2).
End Hash.

(** Equality of values, component by component. *)
Fixpoint fval_eqb (a b : fval) : bool :=
  match a, b with
  | FStr s, FStr t => String.eqb s t
  | FBool x, FBool y => Bool.eqb x y
  | FNum x, FNum y => Z.eqb x y
  | FRat x, FRat y => Z.eqb (Qnum x) (Qnum y) && Pos.eqb (Qden x) (Qden y)
  | FCell x, FCell y => cell_eqb x y
  | FTup l, FTup r =>
      (fix go l r := match l, r with
                     | [], [] => true
                     | x :: l', y :: r' => fval_eqb x y && go l' r'
                     | _, _ => false
                     end) l r
  | FFp l, FFp r =>
      (fix go (l r : list (string * fval)) := match l, r with
                     | [], [] => true
                     | (n, x) :: l', (m, y) :: r' => String.eqb n m && fval_eqb x y && go l' r'
                     | _, _ => false
                     end) l r
  | _, _ => false
  end.
Definition list_eqb {A} (eq : A -> A -> bool) : list A -> list A -> bool :=
  fix go l r := match l, r with
                | [], [] => true
                | x :: l', y :: r' => eq x y && go l' r'
                | _, _ => false
                end.
Definition ckey_eqb (a b : ckey) : bool :=
  fval_eqb (k_fp a) (k_fp b) &&
  match k_raw a, k_raw b with Some x, Some y => String.eqb x y | None, None => true | _, _ => false end &&
  list_eqb String.eqb (k_where a) (k_where b) && list_eqb String.eqb (k_split a) (k_split b) &&
  list_eqb (fun x y => String.eqb (fst x) (fst y) && cell_eqb (snd x) (snd y)) (k_slice a) (k_slice b).

(** A hash function without collisions of strings, tuples and hashed numbers: hash values are
    trees. *)
Definition ideal : hashing fval := Hashing fval FStr FTup FNum FRat (FCell CNull) fval_eqb.
