(** Vocabulary for C49: how a string is split by a template. *)
From Coq Require Import String List.
From Verif Require Import M_Base M_Fold M_Expr M_Split.
Import ListNotations.
Open Scope Z_scope.

(** A string as a template sees it: a text of some kind, or parts with a separator. *)
Inductive tree :=
| Leaf (k : option kind) (s : list Z)
| Node (sep : list Z) (l : list tree).
(** its text *)
Fixpoint between (sep : list Z) (l : list (list Z)) : list Z :=
  match l with [] => [] | x :: l => x ++ match l with [] => [] | _ => sep ++ between sep l end end.
Fixpoint text (t : tree) : list Z :=
  match t with Leaf _ s => s | Node sep l => between sep (map text l) end.

(** [pieces sep l]: cut at each separator from the left, the text gives [l].  No piece has a
    separator in it, and none begins in a piece and ends in the separator behind it. *)
Inductive pieces (sep : list Z) : list (list Z) -> Prop :=
| pieces_last x : (forall p q, x <> p ++ sep ++ q) -> pieces sep [x]
| pieces_more x l : (forall p q, x ++ sep = p ++ sep ++ q -> q = []) -> pieces sep l -> pieces sep (x :: l).

(** [assigned types plural n i t]: of [n] parts, the [i]th has the type [t].  Without a plural
    these are the types in order, and then strings.  With a plural the types before it count
    from the start and those behind it from the end, and it is repeated in between.  If there
    are fewer parts than types outside the plural, the plural is left out. *)
Definition assigned (types : list ty) (plural : option (nat * nat)) (n i : nat) (t : ty) : Prop :=
  (i < n)%nat /\
  match plural with
  | None => nth_error types i = Some t \/ ((length types <= i)%nat /\ t = TPlain None)
  | Some (b, e) =>
      let after := (length types - e)%nat in
      if (i <? b)%nat then nth_error types i = Some t
      else if (b + after <=? n)%nat then
        if (i <? n - after)%nat then nth_error types (b + (i - b) mod (e - b)) = Some t
        else nth_error types (e + (i - (n - after))) = Some t
      else nth_error types (e + (i - b)) = Some t
  end.

(** [reads t s tr]: by the type [t] the string [s] is [tr]. *)
Inductive reads : ty -> list Z -> tree -> Prop :=
| reads_plain k s : reads (TPlain k) s (Leaf k s)
| reads_split sep types plural ss trs : sep <> [] -> pieces sep ss -> length trs = length ss ->
    (forall i s tr, nth_error ss i = Some s -> nth_error trs i = Some tr ->
       exists t, assigned types plural (length ss) i t /\ reads t s tr) ->
    reads (TSplit sep types plural) (between sep ss) (Node sep trs).

(** the texts of a kind, from left to right *)
Fixpoint names (k : kind) (t : tree) : list (list Z) :=
  match t with
  | Leaf (Some k') s => if kind_eqb k' k then [s] else []
  | Leaf None _ => []
  | Node _ l => flat_map (names k) l
  end.
(** all globals and members renamed, everything else as it was *)
Section Renamed.
Context (globals members : list Z -> list Z).
Fixpoint renamed (t : tree) : tree :=
  match t with
  | Leaf (Some KGlobal) s => Leaf (Some KGlobal) (globals s)
  | Leaf (Some KMember) s => Leaf (Some KMember) (members s)
  | Leaf None s => Leaf None s
  | Node sep l => Node sep (map renamed l)
  end.
End Renamed.

(** templates that make sense: no empty separator, and plurals that are there *)
Inductive sound_ty : ty -> Prop :=
| sound_plain k : sound_ty (TPlain k)
| sound_split sep types plural : sep <> [] -> Forall sound_ty types ->
    match plural with Some (b, e) => (b < e <= length types)%nat | None => True end ->
    sound_ty (TSplit sep types plural).
(** the separators of a template *)
Fixpoint separators (t : ty) : list (list Z) :=
  match t with TPlain _ => [] | TSplit sep types _ => sep :: flat_map separators types end.

(** A template as it may be after other strings were parsed with it: the list of types of a
    template without a plural may have got strings at its end. *)
Inductive padded : ty -> ty -> Prop :=
| padded_plain k : padded (TPlain k) (TPlain k)
| padded_split sep types types' plural n : Forall2 padded types types' -> (plural <> None -> n = 0%nat) ->
    padded (TSplit sep types plural) (TSplit sep (types' ++ repeat (TPlain None) n) plural).

(* ------------------------------------------------------------------ *)
(** How a template is spelled in the arguments. *)
Section Spelled.
Context (isalpha : Z -> bool).
(** A separator is a character, which must be escaped if it has a meaning. *)
Inductive spells_sep : list Z -> list Z -> Prop :=
| sep_plain c : isalpha c = false -> ~ In c [0; 40; 41; 92] -> spells_sep [c] [c]
| sep_paren c : c = 40 \/ c = 41 -> spells_sep [c] [92; c]
| sep_any c : spells_sep [c] [92; 119; c].                          (* backslash, "w" *)
Inductive kind_word : option kind -> list Z -> Prop :=
| word_member : kind_word (Some KMember) (asc "member"%string)
| word_global : kind_word (Some KGlobal) (asc "global"%string)
| word_string : kind_word None (asc "string"%string)
| word_preserve : kind_word None (asc "preserve"%string).
Definition plural_mark (p : bool) : list Z := if p then asc "s"%string else [].
(** The types in the plural are next to each other. *)
Definition plural_range (items : list (ty * bool)) (plural : option (nat * nat)) : Prop :=
  match plural with
  | None => Forall (fun x => snd x = false) items
  | Some (b, e) => exists x y z, items = x ++ y ++ z /\ y <> [] /\ length x = b /\ (length x + length y)%nat = e /\
      Forall (fun x => snd x = false) x /\ Forall (fun x => snd x = true) y /\ Forall (fun x => snd x = false) z
  end.
(** A template is a list of types, two at least or with a separator behind it. *)
Inductive spelled : ty -> list Z -> Prop :=
| spelled_split sep items plural s e : spelled_items sep items s -> plural_range items plural ->
    e = [] /\ (2 <= length items)%nat \/ spells_sep sep e ->
    spelled (TSplit sep (map fst items) plural) (s ++ e)
with spelled_items : list Z -> list (ty * bool) -> list Z -> Prop :=
| items_one sep t p w : spelled_item t p w -> spelled_items sep [(t, p)] w
| items_more sep t p w e items s : spelled_item t p w -> spells_sep sep e -> spelled_items sep items s ->
    spelled_items sep ((t, p) :: items) (w ++ e ++ s)
with spelled_item : ty -> bool -> list Z -> Prop :=
| item_plain k p w : kind_word k w -> spelled_item (TPlain k) p (w ++ plural_mark p)
| item_nested t p s : spelled t s -> spelled_item t p (40 :: s ++ 41 :: plural_mark p).
End Spelled.
