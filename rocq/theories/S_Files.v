(** What filtering, merging and ordering files mean, said without the code. *)
From Verif Require Import M_Base.
Open Scope Z_scope.

(** A filter list selects a path: some pattern without "!" matches it, and no
    pattern with "!" does. *)
Definition selects (matcher : list Z -> list Z -> bool) (patterns : list (list Z)) (p : list Z) : Prop :=
  (exists q, In q patterns /\ (forall r, q <> 33 :: r) /\ matcher q p = true) /\
  (forall q, In (33 :: q) patterns -> matcher q p = false).

(** [q] is a directory around [p]: a part of it up to a "/", other than the
    root, with more than "/" after it *)
Definition around (q p : list Z) : Prop :=
  exists r, p = q ++ r /\ (exists c, In c r /\ c <> 47) /\
            (exists s, q = s ++ [47]) /\ q <> [47].

(** [a] comes before [b] *)
Definition before {A} (l : list A) (a b : A) : Prop := exists x y z, l = x ++ a :: y ++ b :: z.

(** [name] resolves in some steps to [target]; [args] are the arguments that the
    aliases on the way put in front, the first alias first *)
Section Alias.
Context (lookup : list Z -> option (list Z * list Z)).
Inductive resolves : list Z -> list (list Z) -> list Z -> Prop :=
| resolves_end n : lookup n = None -> resolves n [] n
| resolves_step n t a l m : lookup n = Some (t, a) -> resolves t l m -> resolves n (a :: l) m.
End Alias.
(** texts one after the other, a space between any two; empty ones are left out *)
Fixpoint spaced (l : list (list Z)) : list Z :=
  match l with [] => [] | [x] => x | x :: l => x ++ 32 :: spaced l end.
Definition nonempty (x : list Z) : bool := match x with [] => false | _ => true end.
Definition arguments (l : list (list Z)) : list Z := spaced (filter nonempty l).

