(** What carts are kept of Picotron, said without the code. *)
From Verif Require Import M_Base M_Files.
Open Scope Z_scope.

(** A path that names a directory if and only if it ends with a slash, a name without
    zero bytes, and contents of less than four gigabytes. *)
Definition sound_file (f : list Z * option (list Z)) : Prop :=
  let '(p, file) := f in
  Forall (fun c => 0 < c < 256) p /\
  match file with
  | None => exists q, p = q ++ [47]
  | Some data => (forall q, p <> q ++ [47]) /\ bytes_ok data /\ zlen data < 4294967296
  end.
Definition sound_files (fs : list (list Z * option (list Z))) : Prop :=
  NoDup (map fst fs) /\ Forall sound_file fs.

(** a size limit that is set and exceeded; a limit of zero is none *)
Definition over (limit : option Z) (size : Z) : Prop :=
  exists l, limit = Some l /\ l <> 0 /\ l < size.

(** Directories come before files, and a directory before those inside it.  (The empty
    path, which no file has, is left out.) *)
Definition dirs_first (fs : list (list Z * option (list Z))) : Prop :=
  (forall d p data, In (d, None) fs -> In (p, Some data) fs -> p <> [] ->
     exists x y z, fs = x ++ (d, None) :: y ++ (p, Some data) :: z) /\
  (forall d r, In (d, None) fs -> In (d ++ r, None) fs -> r <> [] ->
     exists x y z, fs = x ++ (d, None) :: y ++ (d ++ r, None) :: z).

(** What hiding bits in the pixels leaves of them: all but the low three bits of red,
    green and blue and the low two of alpha. *)
Definition looks_same (p p' : Z * Z * Z * Z) : Prop :=
  let '(r, g, b, a) := p in let '(r', g', b', a') := p' in
  r' / 8 = r / 8 /\ g' / 8 = g / 8 /\ b' / 8 = b / 8 /\ a' / 4 = a / 4.
