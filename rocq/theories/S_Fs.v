(** What carts as directories mean: places in a file system, and the names of files in a cart. *)
From Verif Require Import M_Base M_Files M_Fs.
Open Scope Z_scope.

(** [q] is [base] or something in it *)
Definition inside (base q : list name) : Prop := exists rest, q = base ++ rest.
(** A file system: whatever is in it is in a directory. *)
Definition sound (f : fs) : Prop := forall p n, look f (p ++ [n]) <> None -> p = [] \/ look f p = Some None.

(** A part of a path that means itself *)
Definition plain (c : name) : Prop := c <> [] /\ c <> dot /\ c <> dotdot /\ ~ In 47 c.
(** The name in a cart of what is at this place: "a/b" for a file, "a/b/" for a directory *)
Fixpoint fsname (cs : list name) (e : entry) : name :=
  match cs with
  | [] => []
  | [c] => match e with None => c ++ [47] | Some _ => c end
  | c :: cs => c ++ 47 :: fsname cs e
  end.
(** A cart whose files are at these places, each in a directory of the cart or at the top *)
Record tidy (tree : list (list name * entry)) : Prop := {
  places_once : NoDup (map fst tree);
  places_plain : forall cs e, In (cs, e) tree -> cs <> [] /\ Forall plain cs;
  places_in : forall cs c e, In (cs ++ [c], e) tree -> cs <> [] -> In (cs, None) tree }.
Definition cart_of (tree : list (list name * entry)) : list (path * entry) := map (fun x => (fsname (fst x) (snd x), snd x)) tree.
