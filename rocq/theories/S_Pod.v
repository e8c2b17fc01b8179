(** What is claimed about pods: which values survive, and when two values are the same. *)
From Coq Require Import String List ZArith Permutation.
From Verif Require Import M_Base M_Num M_Token M_Expr M_Pxu M_Pod S_Num.
Import ListNotations.
Open Scope Z_scope.

(** Integers that decimal printing keeps (see C31). *)
Definition keeps_int (z : Z) : Prop := - 10 ^ 18 < z < 2 ^ 63.

Section Same.
(** When two strings count as the same. *)
Context (same : list Z -> list Z -> Prop).

Definition same_user (u u' : userdata) : Prop :=
  same (ud_type u) (ud_type u') /\ ud_width u = ud_width u' /\ ud_height u = ud_height u' /\ same (ud_data u) (ud_data u').
(** The same value: strings may differ as far as [same] allows, all else is equal. *)
Fixpoint same_pod (v v' : pod) : Prop :=
  match v, v' with
  | VNil, VNil => True
  | VBool b, VBool b' => b = b'
  | VInt z, VInt z' => z = z'
  | VStr s, VStr s' => same s s'
  | VUser u, VUser u' => same_user u u'
  | VTable t, VTable t' => same_entries t t'
  | _, _ => False
  end
with same_entries (t t' : entries) : Prop :=
  match t, t' with
  | ENil, ENil => True
  | ECons k v t, ECons k' v' t' => same_pod k k' /\ same_pod v v' /\ same_entries t t'
  | _, _ => False
  end.

(** Two keys that a table can not have both: the same ones, or false and 0. *)
Definition clash (k k' : pod) : Prop :=
  match k, k' with
  | VStr s, VStr s' => same s s'
  | VUser u, VUser u' => same_user u u'
  | VInt z, VInt z' => z = z'
  | VBool b, VBool b' => b = b'
  | VInt z, VBool b | VBool b, VInt z => z = Z.b2z b
  | _, _ => False
  end.
Fixpoint keys (t : entries) : list pod := match t with ENil => [] | ECons k _ t => k :: keys t end.

(** Values without floats and without integers that are too negative; the keys of tables are
    integers, strings, userdata or false, and distinct; no value in a table is nil. *)
Fixpoint storable (v : pod) : Prop :=
  match v with
  | VNil | VBool _ | VStr _ => True
  | VInt z => keeps_int z
  | VFloat => False
  | VUser u => keeps_int (ud_width u) /\ keeps_int (ud_height u)
  | VTable t => storable_entries t
  end
with storable_entries (t : entries) : Prop :=
  match t with
  | ENil => True
  | ECons k v t =>
      storable k /\ storable v /\ v <> VNil /\
      match k with VInt _ | VStr _ | VUser _ => True | VBool b => b = false | _ => False end /\
      Forall (fun k' => ~ clash k k') (keys t) /\ storable_entries t
  end.
End Same.

(** All strings, and all userdata, of a value. *)
Section All.
Context (P : list Z -> Prop) (Q : userdata -> Prop).
Fixpoint all_pod (v : pod) : Prop :=
  match v with
  | VStr s => P s
  | VUser u => P (ud_type u) /\ P (ud_data u) /\ Q u
  | VTable t => all_entries t
  | _ => True
  end
with all_entries (t : entries) : Prop :=
  match t with ENil => True | ECons k v t => all_pod k /\ all_pod v /\ all_entries t end.
End All.

(** Text that can be encoded: Unicode, and the escapes of bytes. *)
Definition char_ok (c : Z) : Prop := 0 <= c < 0x110000 /\ ~ (0xd800 <= c < 0xdc80) /\ ~ (0xdd00 <= c < 0xe000).
Definition text_ok (s : list Z) : Prop := Forall char_ok s.
(** The same bytes: what a Lua string is. *)
Definition same_bytes (s s' : list Z) : Prop := encode_luastr s = encode_luastr s'.

(** Userdata that pxu can hold: for the types it compresses, as many hexadecimal digits as the
    sizes say. *)
Definition pxu_ready (u : userdata) : Prop :=
  forall t, ud_type u = pxu_name t -> firstn 4 (ud_data u) <> asc "hex:" ->
    0 <= ud_width u < 2 ^ 32 /\ 0 <= ud_height u < 2 ^ 32 /\ Forall (is_digit 16) (ud_data u) /\
    zlen (ud_data u) = match t with U8 => 2 | I16 => 4 end * (ud_width u * if ud_height u =? 0 then 1 else ud_height u).

(** The same table, whatever the order of its entries. *)
Fixpoint to_list (t : entries) : list (pod * pod) := match t with ENil => [] | ECons k v t => (k, v) :: to_list t end.
Definition reordered (t t' : entries) : Prop := Permutation (to_list t) (to_list t').

(** Text that was made from bytes; and text without surrogates, which always is. *)
Definition from_bytes (s : list Z) : Prop := exists b, bytes_ok b /\ s = decode_luastr b.
Definition unicode (s : list Z) : Prop := Forall (fun c => 0 <= c < 0x110000 /\ ~ (0xd800 <= c < 0xe000)) s.

(** Files: with a header, which begins like this and is ended, or without. *)
Definition header_start : list Z := asc "--[[pod".
Definition headed (data : list Z) : Prop := exists h rest, data = header_start ++ h ++ asc "]]" ++ rest.
Definition headless (data : list Z) : Prop := ~ exists rest, data = header_start ++ rest.
