(** Specification of what a sequence of LZ77 items means, independent of any
    encoder or decoder. *)
From Verif Require Import M_Base M_Lz77.
Open Scope Z_scope.

(** [copied out out' o n]: [out'] is [out] followed by [n] elements, each equal
    to the element [o] places before it (which may itself be a copied one). *)
Definition copied (out out' : list Z) (o n : Z) : Prop :=
  exists ext, out' = out ++ ext /\ zlen ext = n /\
  forall k, 0 <= k < n ->
    znth out' (zlen out + k) = znth out' (zlen out + k - o).

(** [spells out items out']: starting from already produced text [out], the
    items produce [out'].  Back-references must point inside produced text. *)
Inductive spells : list Z -> list item -> list Z -> Prop :=
  | sp_nil : forall out, spells out [] out
  | sp_lit : forall out c its out', spells (out ++ [c]) its out' -> spells out (Lit c :: its) out'
  | sp_blk : forall out s its out', spells (out ++ s) its out' -> spells out (Blk s :: its) out'
  | sp_mat : forall out o n mid its out',
      1 <= o <= zlen out -> 1 <= n -> copied out mid o n ->
      spells mid its out' -> spells out (Mat o n :: its) out'.

(** What the pxa format can represent: byte literals, offsets up to 2^15, counts
    of at least 3, blocks of non-zero bytes (a one-character block is stored as
    a literal and may be zero). *)
Definition pxa_item (it : item) : Prop :=
  match it with
  | Lit c => 0 <= c < 256
  | Mat o n => 1 <= o <= 32768 /\ 3 <= n
  | Blk [c] => 0 <= c < 256
  | Blk s => Forall (fun c => 0 < c < 256) s
  end.

(** The decoder stops as soon as the text is complete, so an item producing no
    text must not come last. *)
Definition ends_with_text (its : list item) : Prop := last its (Lit 0) <> Blk [].

(** The limits a caller of the match finder can put on back-references. *)
Definition within_limits (min_c : Z) (max_c max_o : option Z) (no_repeat : bool) (it : item) : Prop :=
  match it with
  | Mat o n =>
      1 <= o /\ 1 <= n /\
      (forall m, max_o = Some m -> o <= m) /\
      (forall m, max_c = Some m -> n <= m) /\
      (no_repeat = true -> n <= o) /\
      (no_repeat = false -> (forall m, max_c = Some m -> min_c <= m) -> min_c <= n)
  | _ => True
  end.
