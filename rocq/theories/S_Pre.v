(** Specification vocabulary for preprocessing: how a source text is read as a sequence
    of comments, strings, include lines and other characters; tabs; lines. *)
From Verif Require Import M_Base.
Open Scope nat_scope.

Inductive item :=
  | Other (c : Z)                        (* any character that starts nothing else *)
  | Quoted (q : Z) (body : list Z)       (* a string in quotes *)
  | OpenQuoted (q : Z) (body : list Z)   (* a string never closed *)
  | LineComment (body : list Z)          (* -- up to the end of the line *)
  | LongComment (n : nat) (body : list Z) (* --[==[ .. ]==] *)
  | LongString (body : list Z)           (* [[ .. ]] *)
  | Hash                                 (* a # that is not an include directive *)
  | Include (ws sp name : list Z).       (* a line's blanks, #include, blanks, the name *)

Definition eqs (n : nat) : list Z := repeat 61%Z n.
Definition open_b (n : nat) : list Z := 91%Z :: eqs n ++ [91%Z].
Definition close_b (n : nat) : list Z := 93%Z :: eqs n ++ [93%Z].
(** "include" *)
Definition w_include : list Z := [105; 110; 99; 108; 117; 100; 101]%Z.
Definition text_of (it : item) : list Z :=
  match it with
  | Other c => [c]
  | Quoted q body => q :: body ++ [q]
  | OpenQuoted q body => q :: body
  | LineComment body => [45; 45]%Z ++ body
  | LongComment n body => [45; 45]%Z ++ open_b n ++ body ++ close_b n
  | LongString body => open_b 0 ++ body ++ close_b 0
  | Hash => [35%Z]
  | Include ws sp name => ws ++ [35%Z] ++ w_include ++ sp ++ name
  end.
Definition texts (l : list item) : list Z := concat (map text_of l).

(** The inside of a string: no bare quote; a backslash takes the next character with it. *)
Inductive quoted_body (q : Z) : list Z -> Prop :=
  | qb_nil : quoted_body q []
  | qb_char c b : c <> q -> c <> 92%Z -> quoted_body q b -> quoted_body q (c :: b)
  | qb_esc c b : 92%Z <> q -> quoted_body q b -> quoted_body q (92%Z :: c :: b).
(** [close] stands right after [body] and nowhere before. *)
Definition first_close (close body : list Z) : Prop := forall a b, body ++ close = a ++ close ++ b -> b = [].
(** The text starts with a closed long bracket. *)
Definition long_start (s : list Z) : Prop := exists n body rest, s = open_b n ++ body ++ close_b n ++ rest.
Definition line_end (after : list Z) : Prop := after = [] \/ exists t, after = 10%Z :: t.
Definition no_newline (s : list Z) : Prop := Forall (fun c => c <> 10%Z) s.
Definition line_begin (before : list Z) : Prop := before = [] \/ exists t, before = t ++ [10%Z].
Definition blank (c : Z) : Prop := c = 32%Z \/ c = 9%Z \/ c = 13%Z.
(** Python's notion of whitespace, given as a set. *)
Definition space_char (c : Z) : Prop :=
  (9 <= c <= 13 \/ 28 <= c <= 32 \/ c = 0x85 \/ c = 0xa0 \/ c = 0x1680 \/ 0x2000 <= c <= 0x200a \/ c = 0x2028 \/ c = 0x2029
   \/ c = 0x202f \/ c = 0x205f \/ c = 0x3000)%Z.
Definition gap (sp : list Z) : Prop := sp <> [] /\ Forall space_char sp /\ no_newline sp.
Definition inc_name (name : list Z) : Prop := (exists c t, name = c :: t /\ ~ space_char c) /\ no_newline name.

Definition item_ok (before : list Z) (it : item) (after : list Z) : Prop :=
  match it with
  | Other c =>
      c <> 34%Z /\ c <> 39%Z /\ c <> 35%Z /\
      (c = 45%Z -> forall t, after <> 45%Z :: t) /\ (c = 91%Z -> forall t, after <> 91%Z :: t)
  | Quoted q body => (q = 34%Z \/ q = 39%Z) /\ quoted_body q body
  | OpenQuoted q body =>
      (q = 34%Z \/ q = 39%Z) /\ after = [] /\ (quoted_body q body \/ exists b, body = b ++ [92%Z] /\ quoted_body q b)
  | LineComment body => no_newline body /\ line_end after /\ ~ long_start (body ++ after)
  | LongComment n body => first_close (close_b n) body
  | LongString body => first_close (close_b 0) body
  | Hash =>
      ~ ((exists b ws, before = b ++ ws /\ line_begin b /\ Forall blank ws) /\
         exists sp name rest, after = w_include ++ sp ++ name ++ rest /\ gap sp /\ inc_name name /\ line_end rest)
  | Include ws sp name => line_begin before /\ Forall blank ws /\ gap sp /\ inc_name name /\ line_end after
  end.
(** The text read so far, the items from here on, and what follows them. *)
Inductive items_ok : list Z -> list item -> list Z -> Prop :=
  | io_nil before rest : items_ok before [] rest
  | io_cons before it items rest :
      item_ok before it (texts items ++ rest) -> items_ok (before ++ text_of it) items rest ->
      items_ok before (it :: items) rest.

(** An include line stands for the included code, everything else for itself. *)
Definition replaced {C} (get : list Z -> res C) (code_of : C -> list Z) (it : item) : res (list Z) :=
  match it with
  | Include _ _ name => c <- get name ;; Ok (code_of c)
  | _ => Ok (text_of it)
  end.
Fixpoint output_of {C} (get : list Z -> res C) (code_of : C -> list Z) (items : list item) : res (list Z) :=
  match items with
  | [] => Ok []
  | it :: items => r <- replaced get code_of it ;; rs <- output_of get code_of items ;; Ok (r ++ rs)
  end.

(** *** Tabs *)
Definition tab_break : list Z := [10; 45; 45; 62; 56; 10]%Z.
(** The text cut at its tab separators, from the left. *)
Inductive tabs : list Z -> list (list Z) -> Prop :=
  | tabs_last s : (forall a b, s <> a ++ tab_break ++ b) -> tabs s [s]
  | tabs_cut a b l : (forall a' b', a ++ tab_break ++ b = a' ++ tab_break ++ b' -> length a <= length a') ->
      tabs b l -> tabs (a ++ tab_break ++ b) (a :: l).

(** *** Lines *)
Definition newlines (s : list Z) : nat := length (filter (Z.eqb 10) s).

(** Where tab [n]'s text starts: each earlier tab and the separator after it come first. *)
Fixpoint tab_start (l : list (list Z)) (n : nat) : nat :=
  match n, l with S n, a :: l => length a + 6 + tab_start l n | _, _ => 0 end.
(** A hexadecimal digit and its value. *)
Definition hex_digit (d : Z) (v : nat) : Prop :=
  (48 <= d <= 57 /\ v = Z.to_nat (d - 48) \/ 97 <= d <= 102 /\ v = Z.to_nat (d - 97 + 10) \/ 65 <= d <= 70 /\ v = Z.to_nat (d - 65 + 10))%Z.
