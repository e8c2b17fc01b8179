(** Vocabulary for C46, C47, C48 and C69: sets of named carts and lists of entries, and where
    they are in a file. *)
From Coq Require Import String List.
From Verif Require Import M_Base M_Text M_Expr M_Export.
Import ListNotations.
Open Scope Z_scope.

(** * Sets of carts *)

(** an ordered list of named carts *)
Definition bundle := list (list Z * list Z).
Definition has (b : bundle) (name : list Z) : Prop := In name (map fst b).

(** [edit b op b']: the edit [op] turns [b] into [b'].  Exactly one cart is inserted, given new
    contents, deleted or given a new name. *)
Definition is_named (b : bundle) (name : option (list Z)) (n : list Z) : Prop :=
  match name with Some m => n = m | None => exists c r, b = (n, c) :: r end.
Inductive edit : bundle -> cart_op -> bundle -> Prop :=
| edit_append b n c : ~ has b n -> edit b (OInsert n None c) (b ++ [(n, c)])
| edit_insert x y n c t ct : ~ has (x ++ (t, ct) :: y) n ->
    edit (x ++ (t, ct) :: y) (OInsert n (Some t) c) (x ++ (n, c) :: (t, ct) :: y)
| edit_replace x y n name c old : is_named (x ++ (n, old) :: y) name n ->
    edit (x ++ (n, old) :: y) (OReplace name c) (x ++ (n, c) :: y)
| edit_delete x y n name old : is_named (x ++ (n, old) :: y) name n ->
    edit (x ++ (n, old) :: y) (ODelete name) (x ++ y)
| edit_rename x y n name c m : is_named (x ++ (n, c) :: y) name n -> ~ has (x ++ (n, c) :: y) m ->
    edit (x ++ (n, c) :: y) (ORename name m) (x ++ (m, c) :: y).

(** the new name and the new contents in an edit *)
Definition new_name (op : cart_op) : option (list Z) :=
  match op with OInsert n _ _ | ORename _ n => Some n | _ => None end.
Definition new_cart (op : cart_op) : option (list Z) :=
  match op with OInsert _ _ c | OReplace _ c => Some c | _ => None end.

(** what an export shows: its names, and the cart that is read for each of them *)
Definition shows {St R} (im : impl St R) (st : St) (b : bundle) : Prop :=
  list_carts im st = Ok (map fst b) /\ Forall (fun '(n, c) => read_cart im st (Some n) = Ok c) b.

(** * Js files *)

(** "var KEY = [", with whitespace between *)
Definition blank (s : list Z) : Prop := Forall (fun c => py_isspace c = true) s.
Definition opening (key h : list Z) : Prop :=
  exists s1 s2 s3, h = asc "var"%string ++ s1 ++ key ++ s2 ++ asc "="%string ++ s3 ++ asc "["%string /\
    s1 <> [] /\ blank s1 /\ blank s2 /\ blank s3.
(** The first array [key] of [a ++ g ++ z] holds the text [g]. *)
Definition array (key a g z : list Z) : Prop :=
  (exists p h, a = p ++ h /\ opening key h /\
     forall p' h' q, a ++ g ++ z = p' ++ h' ++ q -> opening key h' -> In 93 q -> (length p <= length p')%nat) /\
  ~ In 93 g /\ exists z', z = 93 :: z'.
(** a js file with an array of names [g] and, behind it, an array of bytes [h] *)
Definition js_file (a g b h z : list Z) : Prop :=
  b <> [] /\ array (asc "_cartname"%string) a g (b ++ h ++ z) /\ array (asc "_cartdat"%string) (a ++ g ++ b) h z.
(** a name that does not need escapes: without comma and square brackets *)
Definition js_name (n : list Z) : Prop := ~ In 44 n /\ ~ In 91 n /\ ~ In 93 n.

(** a js export of [bn], with the texts [a], [b] and [z] around its two arrays; its carts have
    different names *)
Definition js_export (int10 : list Z -> option Z) (cart_size : nat) (a b z : list Z) (bn : bundle) (text : list Z) : Prop :=
  (exists g h, text = a ++ g ++ b ++ h ++ z /\ js_file a g b h z) /\
  NoDup (map fst bn) /\ Forall js_name (map fst bn) /\
  js_names text = Ok (map fst bn) /\ shows (js_impl int10 cart_size) text bn.
(** an edit with such a name and a whole cart *)
Definition js_op (cart_size : nat) (op : cart_op) : Prop :=
  (forall n, new_name op = Some n -> js_name n) /\
  (forall c, new_cart op = Some c -> length c = cart_size /\ bytes_ok c).
(** a sequence of edits *)
Inductive edits : bundle -> list cart_op -> bundle -> Prop :=
| edits_nil b : edits b [] b
| edits_cons b op b1 ops b' : edit b op b1 -> edits b1 ops b' -> edits b (op :: ops) b'.

(** * Pods *)

(** what an entry holds *)
Definition item := (option (list Z) * content)%type.
Definition item_of (e : entry) : item := (e_name e, e_content e).
(** the bytes an entry says it is at *)
Definition at_entry (data : list Z) (e : entry) : list Z := firstn (e_end e - e_pos e) (skipn (e_pos e) data).
(** an opened pod whose bytes, opened again, give the same entries, in place; and its entries
    are all there is behind the header of 76 bytes *)
Definition sound (utf8 : list Z -> bool) (p : pod_file) : Prop :=
  read_pod_file utf8 (p_data p) = Ok p /\
  length (p_data p) = (76 + list_sum (map (fun e => e_end e - e_pos e) (p_entries p)))%nat /\
  bytes_ok (p_data p).
(** an item that fits the format *)
Definition u32_ok (v : Z) : Prop := 0 <= v < 4294967296.
Definition fits (utf8 : list Z -> bool) (it : item) : Prop :=
  match it with
  | (Some n, CFile b) => utf8 n = true /\ bytes_ok n /\ ~ In 0 n /\ (length n <= 64)%nat /\ bytes_ok b /\ u32_ok (zlen b)
  | (None, CBmp w h bpp data) =>
      (bpp = 8 \/ bpp = 32) /\ u32_ok w /\ u32_ok h /\ bytes_ok data /\ u32_ok (zlen data + 20) /\
      zlen data = w * h * (bpp / 8)
  | (None, CPal l) => length l = 256%nat /\ Forall (fun '(r, g, b) => 0 <= r < 256 /\ 0 <= g < 256 /\ 0 <= b < 256) l
  | _ => False
  end.
(** The entries [x] and [y] of [p] are [x'] and [y'] in [p']: what they hold is the same, and so
    are the bytes at their positions. *)
Definition other_bytes (p p' : pod_file) (x y x' y' : list entry) : Prop :=
  map item_of x' = map item_of x /\ map item_of y' = map item_of y /\
  map (at_entry (p_data p')) x' = map (at_entry (p_data p)) x /\ map (at_entry (p_data p')) y' = map (at_entry (p_data p)) y.

(** The items with a name are the carts of a pod export; the rest is something else. *)
Definition cart_of (it : item) : bundle :=
  match it with (Some (x :: n), CFile b) => [(x :: n, b)] | _ => [] end.
Definition carts (l : list item) : bundle := flat_map cart_of l.
Definition others (l : list item) : list item := filter (fun it => match cart_of it with [] => true | _ => false end) l.
(** a pod export of [bn] and of the things [rest] besides; its carts have different names and
    the size of a cart *)
Definition pod_export (utf8 : list Z -> bool) (cart_size : nat) (bn : bundle) (rest : list item) (p : pod_file) : Prop :=
  sound utf8 p /\ carts (map item_of (p_entries p)) = bn /\ others (map item_of (p_entries p)) = rest /\
  NoDup (map fst bn) /\ Forall (fun '(n, c) => length c = cart_size) bn.
(** an edit with a name that fits and a whole cart *)
Definition pod_op (utf8 : list Z -> bool) (cart_size : nat) (op : cart_op) : Prop :=
  (forall n, new_name op = Some n -> n <> [] /\ utf8 n = true /\ bytes_ok n /\ ~ In 0 n /\ (length n <= 64)%nat) /\
  (forall c, new_cart op = Some c -> length c = cart_size /\ bytes_ok c).

(** * System roms and html *)

(** [sysrom_of es d]: the entries one after the other, each behind its size in four bytes, the
    most significant first *)
Inductive sysrom_of : list (list Z) -> list Z -> Prop :=
| sysrom_nil : sysrom_of [] []
| sysrom_cons e es d a b c x : bytes_ok [a; b; c; x] -> zlen e = ((a * 256 + b) * 256 + c) * 256 + x ->
    sysrom_of es d -> sysrom_of (e :: es) (a :: b :: c :: x :: e ++ d).
(** The first [p64cart_str="..."] of [a ++ g ++ z] with hexadecimal digits only has the
    digits [g]. *)
Definition hexdigit (c : Z) : Prop := 48 <= c <= 57 \/ 97 <= c <= 102 \/ 65 <= c <= 70.
Definition html_cart (a g z : list Z) : Prop :=
  exists p z', a = p ++ asc "p64cart_str="%string ++ [34] /\ Forall hexdigit g /\ z = 34 :: z' /\
    forall p' g' q, a ++ g ++ z = p' ++ asc "p64cart_str="%string ++ [34] ++ g' ++ 34 :: q -> Forall hexdigit g' -> (length p <= length p')%nat.
(** Text that spells bytes as hexadecimal digits, large or small. *)
Definition hex_value (c v : Z) : Prop := (0 <= v <= 9 /\ c = 48 + v) \/ (10 <= v <= 15 /\ (c = 97 + (v - 10) \/ c = 65 + (v - 10))).
Inductive hex_text : list Z -> list Z -> Prop :=
| hex_none : hex_text [] []
| hex_byte c d h l g rom : hex_value c h -> hex_value d l -> hex_text g rom -> hex_text (c :: d :: g) (16 * h + l :: rom).
