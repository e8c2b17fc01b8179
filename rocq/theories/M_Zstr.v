(** Model of how the template of the Info.plist of an exported app is found in the executable: [find_zstr], /repo/pico_export.py l.768-785. *)
From Coq Require Import List ZArith Bool.
From Verif Require Import M_Base M_Text.
Import ListNotations.
Open Scope Z_scope.

(** [data.find(p, start)]: the data from where it is found on *)
Fixpoint find_from (p s : list Z) : option (list Z) :=
  if starts_with p s then Some s else match s with [] => None | _ :: s => find_from p s end.
(** [infix in zstr] *)
Definition is_in (p s : list Z) : bool := match find_from p s with Some _ => true | None => false end.
(** [data.find(b"\0", start)] and the slice up to it, l.774-778 *)
Fixpoint up_to_zero (s : list Z) : option (list Z * list Z) :=
  match s with
  | [] => None
  | c :: s => if c =? 0 then Some ([], s) else match up_to_zero s with Some (z, r) => Some (c :: z, r) | None => None end
  end.
(** The loop; the start is past a zero each time, so the number of bytes is enough fuel.  [zstr.decode()] is left out: it is the bytes here. *)
Fixpoint find_zstr_loop (fuel : nat) (data prefix infix : list Z) : res (option (list Z)) :=
  match fuel with
  | O => Err EFuel
  | S fuel =>
      match find_from prefix data with
      | None => Ok None
      | Some s =>
          match up_to_zero s with
          | None => Ok None
          | Some (zstr, rest) => if is_in infix zstr then Ok (Some zstr) else find_zstr_loop fuel rest prefix infix
          end
      end
  end.
Definition find_zstr (data prefix infix : list Z) : res (option (list Z)) := find_zstr_loop (S (length data)) data prefix infix.
