(** What Picotron text carts can hold, said without the code. *)
From Verif Require Import M_Base.
Open Scope Z_scope.

Definition white (c : Z) : Prop := 9 <= c <= 13 \/ c = 32.
(** Paths that stand on a line of their own: not empty, without line breaks, not beginning
    or ending with white space, and not the mark of the end. *)
Definition line_path (p : list Z) : Prop :=
  (exists c t, p = c :: t /\ ~ white c) /\ (exists c t, p = t ++ [c] /\ ~ white c) /\
  ~ In 10 p /\ ~ In 13 p /\ p <> [91;101;111;99;93].

(** Contents that are written in base64: they have control characters or characters beyond
    ASCII (with [avoid_base64]: zeros), or a line that looks like the start of a file. *)
Definition coded_char (avoid_base64 : bool) (c : Z) : Prop :=
  if avoid_base64 then c = 0 else c <= 8 \/ c = 11 \/ c = 12 \/ 14 <= c <= 31 \/ 127 <= c.
Definition file_line (data : list Z) : Prop := exists a b, 10 :: data = a ++ [10] ++ [58;58;32] ++ b.
Definition coded (avoid_base64 : bool) (data : list Z) : Prop :=
  (exists c, In c data /\ coded_char avoid_base64 c) \/ file_line data.
(** Contents that survive as they are. *)
Definition plain (data : list Z) : Prop := ~ In 13 data /\ forall t, data <> [98;54;52;36] ++ t.

Definition text_file (avoid_base64 : bool) (f : list Z * option (list Z)) : Prop :=
  let '(p, file) := f in
  line_path p /\
  match file with
  | None => exists q, p = q ++ [47]
  | Some data => (forall q, p <> q ++ [47]) /\ bytes_ok data /\ (coded avoid_base64 data \/ plain data)
  end.
Definition text_files (avoid_base64 : bool) (fs : list (list Z * option (list Z))) : Prop :=
  NoDup (map fst fs) /\ Forall (text_file avoid_base64) fs.

(** A directory comes before what is inside it. *)
Definition parents_first (fs : list (list Z * option (list Z))) : Prop :=
  forall d p file, In (d, None) fs -> In (d ++ p, file) fs -> p <> [] ->
    exists x y z, fs = x ++ (d, None) :: y ++ (d ++ p, file) :: z.
