(** Common vocabulary of the model: results with Python exceptions as values,
    Python list/str slicing, and byte/char conventions.

    Conventions used by every model file:
    - bytes and characters are [Z]; a byte is in [0,256).
    - strings and byte strings are [list Z].
    - an exception raised by the Python code is [Err e]. *)
From Coq Require Export List ZArith Lia Bool Arith.
From Coq Require Export ZifyBool ZifyNat ZifyN.
Export ListNotations.

(** Kinds of Python exceptions the modelled code can raise.  [EFuel] is not a
    Python exception: it marks that the model's loop bound was exhausted. *)
Inductive exn :=
  | EAssert      (* AssertionError *)
  | EStruct      (* struct.error *)
  | EIndex       (* IndexError *)
  | EValue       (* ValueError *)
  | EType        (* TypeError *)
  | EKey         (* KeyError *)
  | ERecursion   (* RecursionError *)
  | ECheck       (* utils.CheckError, raised by check/throw *)
  | EOverflow    (* OverflowError *)
  | EFuel.

Inductive res (A : Type) :=
  | Ok (a : A)
  | Err (e : exn).
Arguments Ok {A} a.
Arguments Err {A} e.

Definition bind {A B} (m : res A) (f : A -> res B) : res B :=
  match m with Ok a => f a | Err e => Err e end.

Declare Scope res_scope.
Delimit Scope res_scope with res.
Notation "x <- m ;; f" := (bind m (fun x => f))
  (at level 61, m at next level, right associativity) : res_scope.
Notation "' p <- m ;; f" := (bind m (fun x => let 'p := x in f))
  (at level 61, p pattern, m at next level, right associativity) : res_scope.
Open Scope res_scope.

(** assert / check *)
Definition assert_ (b : bool) : res unit := if b then Ok tt else Err EAssert.
Definition check_ (b : bool) : res unit := if b then Ok tt else Err ECheck.

Fixpoint map_res {A B} (f : A -> res B) (l : list A) : res (list B) :=
  match l with
  | [] => Ok []
  | x :: xs => y <- f x ;; ys <- map_res f xs ;; Ok (y :: ys)
  end.

Definition is_ok {A} (m : res A) : bool := match m with Ok _ => true | Err _ => false end.

(** Bytes *)
Definition is_byte (b : Z) : bool := (0 <=? b)%Z && (b <? 256)%Z.
Definition bytes_ok (l : list Z) : Prop := Forall (fun b => (0 <= b < 256)%Z) l.

(** Length as Z *)
Definition zlen {A} (l : list A) : Z := Z.of_nat (length l).

(** Python [l[a:b]] for [0 <= a], [0 <= b] (indices past the end are clipped). *)
Definition slice {A} (l : list A) (a b : Z) : list A :=
  firstn (Z.to_nat (b - a)) (skipn (Z.to_nat a) l).

(** Python [l[a]] for [0 <= a]; [None] = IndexError. *)
Definition znth {A} (l : list A) (a : Z) : option A :=
  if (a <? 0)%Z then None else nth_error l (Z.to_nat a).

Definition zeqb_list (a b : list Z) : bool :=
  (fix go a b := match a, b with
   | [], [] => true
   | x :: a, y :: b => (x =? y)%Z && go a b
   | _, _ => false
   end) a b.

(** Replace element at a [nat] index (Python [l[i] = v], out of range = unchanged;
    callers guard the index). *)
Fixpoint list_upd {A} (l : list A) (i : nat) (v : A) : list A :=
  match l, i with
  | [], _ => []
  | _ :: xs, O => v :: xs
  | x :: xs, S i => x :: list_upd xs i v
  end.
