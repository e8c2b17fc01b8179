(** What hints in comments say, and about which token. *)
From Coq Require Import String.
From Verif Require Import M_Base M_Fold M_Token S_Token M_Expr M_Hints S_Gap.
Import ListNotations.
Open Scope list_scope.
Open Scope Z_scope.

(** A comment: whether it is in brackets, and its text without marks, brackets and line break *)
Definition comment := (bool * list Z)%type.
(** Whitespace and comments, and the comments in them *)
Inductive gap_of (lang : language) : list Z -> list comment -> Prop :=
| of_none : gap_of lang [] []
| of_space c g cs : In c [32; 9; 13; 10] -> gap_of lang g cs -> gap_of lang (c :: g) cs
| of_line c body g cs : line_text lang c body -> gap_of lang g cs -> gap_of lang (c ++ 10 :: g) ((false, body) :: cs)
| of_block c inner g cs : block_text c inner -> gap_of lang g cs -> gap_of lang (c ++ g) ((true, inner) :: cs).

Section Hints.
Context (isspace : Z -> bool).
Definition sep (c : Z) : Prop := isspace c = true \/ c = 44.
(** [ws] are the words of [s], which spaces and commas set apart. *)
Inductive words_are : list Z -> list (list Z) -> Prop :=
| no_words s : Forall sep s -> words_are s []
| a_word g w rest ws : Forall sep g -> w <> [] -> Forall (fun c => ~ sep c) w -> (forall c r, rest = c :: r -> sep c) ->
    words_are rest ws -> words_are (g ++ w ++ rest) (w :: ws).

(** A hint may be written with a "$" before it. *)
Definition says (c : comment) (x : list Z) : Prop := snd c = x \/ snd c = 36 :: x.
Definition block_says (c : comment) (x : list Z) : Prop := fst c = true /\ says c x.
(** "preserve: a, b", "lint: a" and "keep: ..." may be in comments of either kind, *)
Inductive hint_of (c : comment) : hint -> Prop :=
| is_lint rest ws : says c (asc "lint:" ++ rest) -> words_are rest ws -> hint_of c (HLint ws)
| is_preserve rest ws : says c (asc "preserve:" ++ rest) -> words_are rest ws -> hint_of c (HPreserve ws)
| is_keep rest : says c (asc "keep:" ++ rest) -> hint_of c HKeep.
(** the others must be all of a comment in brackets. *)
Inductive gives_var (c : comment) : vkind -> Prop :=
| var_global x : block_says c (asc x) -> In x ["global"; "nameof"]%string -> gives_var c KGlobal
| var_member x : block_says c (asc x) -> In x ["member"; "memberof"]%string -> gives_var c KMember
| var_preserve x : block_says c (asc x) -> In x ["preserve"; "string"]%string -> gives_var c KPreserve.
Inductive gives_keys (c : comment) : vkind -> Prop :=
| keys_global : block_says c (asc "global-keys") -> gives_keys c KGlobal
| keys_member : block_says c (asc "member-keys") -> gives_keys c KMember
| keys_preserve x : block_says c (asc x) -> In x ["preserve-keys"; "string-keys"]%string -> gives_keys c KPreserve.
Inductive gives_const (c : comment) : bool -> Prop :=
| const_yes : block_says c (asc "const") -> gives_const c true
| const_no : block_says c (asc "non-const") -> gives_const c false.
Inductive gives_merge (c : comment) : bool -> Prop := merge_no : block_says c (asc "no-merge") -> gives_merge c false.
Inductive gives_safe (c : comment) : bool -> Prop := safe_yes : block_says c (asc "force-safe") -> gives_safe c true.
Inductive gives_rename (c : comment) : list Z -> Prop :=
| renamed_to n : block_says c (asc "rename::" ++ n) -> Forall (fun x => isspace x = false) n -> gives_rename c n.
(** the last "func::..." among the words of a lint hint *)
Inductive gives_func (c : comment) : list Z -> Prop :=
| func_word a f b : hint_of c (HLint (a ++ (asc "func::" ++ f) :: b)) -> (forall f', ~ In (asc "func::" ++ f') b) -> gives_func c f.

(** Of several comments the last one counts. *)
Definition last_gives {X} (gives : comment -> X -> Prop) (cs : list comment) (o : option X) : Prop :=
  match o with
  | Some x => exists a c b, cs = a ++ c :: b /\ gives c x /\ forall c' x', In c' b -> ~ gives c' x'
  | None => forall c x, In c cs -> ~ gives c x
  end.
(** The hints that are lists stay in order. *)
Inductive hints_are : list comment -> list hint -> Prop :=
| hints_none : hints_are [] []
| hints_skip cs c hs : hints_are cs hs -> (forall h, ~ hint_of c h) -> hints_are (cs ++ [c]) hs
| hints_one cs c hs h : hints_are cs hs -> hint_of c h -> hints_are (cs ++ [c]) (hs ++ [h]).
(** What these comments say about the token behind them *)
Record said (cs : list comment) (m : mods) : Prop := {
  said_var : last_gives gives_var cs (m_var m);
  said_keys : last_gives gives_keys cs (m_keys m);
  said_const : last_gives gives_const cs (m_const m);
  said_merge : last_gives gives_merge cs (m_merge m);
  said_safe : last_gives gives_safe cs (m_safe m);
  said_rename : last_gives gives_rename cs (m_rename m);
  said_func : last_gives gives_func cs (m_func m);
  said_hints : hints_are cs (m_comments m) }.
(** Each token has the hints of the comments between it and the token before it, and the end of the text has those behind the last one. *)
Inductive hinted (lang : language) : list Z -> list (tok * mods) -> mods -> Prop :=
| hinted_end g cs e : gap_of lang g cs -> said cs e -> hinted lang g [] e
| hinted_comment g cs c body e : gap_of lang g cs -> line_text lang c body -> said (cs ++ [(false, body)]) e -> hinted lang (g ++ c) [] e
| hinted_token g cs t m rest hts e : gap_of lang g cs -> lexeme lang t -> said cs m -> hinted lang rest hts e ->
    hinted lang (g ++ tok_value t ++ rest) ((t, m) :: hts) e.
End Hints.
(** The characters of ASCII that are space to [str.isspace] *)
Definition ascii_isspace (isspace : Z -> bool) : Prop := forall c, 0 <= c < 128 -> isspace c = ((9 <=? c) && (c <=? 13)) || ((28 <=? c) && (c <=? 32)).
