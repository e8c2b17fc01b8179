(** Model of the hints in comments, [tokenize], /repo/pico_tokenize.py l.309-708: [NextTokenMods], [add_next_mods], [process_comment].

    Simplifications: the context reads hints ([hint_comments]), keeps no other comments ([all_comments] is false) and has no
    user-defined languages, compilers, includes and aliases, so the comments that ask for these do nothing; placeholders are left out. *)
From Coq Require Import String.
From Verif Require Import M_Base M_Fold M_Token M_Expr.
Import ListNotations.
Open Scope list_scope.
Open Scope Z_scope.

(** [VarKind.global_], [VarKind.member] and [False] *)
Inductive vkind := KGlobal | KMember | KPreserve.
(** [CommentHint] and [hintdata], of the comments that become the token's children *)
Inductive hint := HLint (l : list (list Z)) | HPreserve (l : list (list Z)) | HKeep.
(** [NextTokenMods], l.309-317; [None] there is [None] here; [m_comments]: [None] there is [[]] here *)
Record mods := mkmods {
  m_var : option vkind; m_keys : option vkind; m_const : option bool; m_func : option (list Z); m_merge : option bool;
  m_safe : option bool; m_rename : option (list Z); m_comments : list hint }.
Definition no_mods : mods := mkmods None None None None None None None [].
Definition set_var (m : mods) k := mkmods (Some k) (m_keys m) (m_const m) (m_func m) (m_merge m) (m_safe m) (m_rename m) (m_comments m).
Definition set_keys (m : mods) k := mkmods (m_var m) (Some k) (m_const m) (m_func m) (m_merge m) (m_safe m) (m_rename m) (m_comments m).
Definition set_const (m : mods) b := mkmods (m_var m) (m_keys m) (Some b) (m_func m) (m_merge m) (m_safe m) (m_rename m) (m_comments m).
Definition set_func (m : mods) f := mkmods (m_var m) (m_keys m) (m_const m) (Some f) (m_merge m) (m_safe m) (m_rename m) (m_comments m).
Definition set_merge (m : mods) b := mkmods (m_var m) (m_keys m) (m_const m) (m_func m) (Some b) (m_safe m) (m_rename m) (m_comments m).
Definition set_safe (m : mods) b := mkmods (m_var m) (m_keys m) (m_const m) (m_func m) (m_merge m) (Some b) (m_rename m) (m_comments m).
Definition set_rename (m : mods) n := mkmods (m_var m) (m_keys m) (m_const m) (m_func m) (m_merge m) (m_safe m) (Some n) (m_comments m).
Definition add_comment (m : mods) h := mkmods (m_var m) (m_keys m) (m_const m) (m_func m) (m_merge m) (m_safe m) (m_rename m) (m_comments m ++ [h]).

(** [str_after_first], utils.py l.1541-1544 *)
Definition str_after_first (s sep : list Z) : list Z := match find_sub sep s with Some (_, r) => r | None => [] end.
Definition is_text (s : list Z) (x : string) : bool := zeqb_list s (asc x).
Definition pre (x : string) (s : list Z) : bool := is_prefix (asc x) s.

Section Hints.
Context (isspace : Z -> bool).
(** [k_hint_split_re.split], l.307, without the empty strings; [cur]: the part so far *)
Definition is_sep (c : Z) : bool := isspace c || (c =? 44).
Definition flush (cur : list Z) (l : list (list Z)) : list (list Z) := match cur with [] => l | _ => cur :: l end.
Fixpoint words (cur s : list Z) : list (list Z) :=
  match s with
  | [] => flush cur []
  | c :: s => if is_sep c then flush cur (words [] s) else words (cur ++ [c]) s
  end.

(** l.463-472 *)
Definition lint_funcs (ws : list (list Z)) (m : mods) : mods :=
  fold_left (fun m w => if pre "func::" w then set_func m (str_after_first w (asc "::")) else m) ws m.
(** l.494-524: comments in brackets *)
Definition block_hint (c : list Z) (m : mods) : mods :=
  if is_text c "global" || is_text c "nameof" then set_var m KGlobal
  else if is_text c "member" || is_text c "memberof" then set_var m KMember
  else if is_text c "preserve" || is_text c "string" then set_var m KPreserve
  else if is_text c "global-keys" then set_keys m KGlobal
  else if is_text c "member-keys" then set_keys m KMember
  else if is_text c "preserve-keys" || is_text c "string-keys" then set_keys m KPreserve
  else if is_text c "no-merge" then set_merge m false
  else if is_text c "const" then set_const m true
  else if is_text c "non-const" then set_const m false
  else if is_text c "force-safe" then set_safe m true
  else if pre "language::" c then m
  else if pre "rename::" c && negb (existsb isspace c) then set_rename m (str_after_first c (asc "::"))
  else m.
(** [process_comment], l.453-535 *)
Definition process_comment (isblock : bool) (comment : list Z) (m : mods) : mods :=
  let proper := pre "$" comment in
  let c := if proper then skipn 1 comment else comment in
  if pre "lint:" c then let ws := words [] (str_after_first c (asc ":")) in add_comment (lint_funcs ws m) (HLint ws)
  else if pre "preserve:" c then add_comment m (HPreserve (words [] (str_after_first c (asc ":"))))
  else if pre "keep:" c then add_comment m HKeep
  else if pre "dynamic-include:" c && proper then m
  else if (pre "def-alias:" c && proper) || pre "deflanguage:" c then m
  else if pre "switch-compiler:" c && proper then m
  else if isblock then block_hint c m
  else m.

(** The comment a round of the main loop reads, if any (l.537-544, l.566-573, l.676-682): the text behind a line comment's mark, with
    its line break, or the text in the brackets *)
Fixpoint take_line (s : list Z) : list Z := match s with [] => [] | c :: s => if c =? 10 then [c] else c :: take_line s end.
Definition round_comment (lang : language) (ch : Z) (t : list Z) : option (bool * list Z) :=
  if mem ch k_wspace then None
  else if (ch =? 45) && next_is (Z.eqb 45) t then
    match scan_long (skipn 1 t) with LOk _ inner _ => Some (true, inner) | _ => Some (false, take_line (skipn 1 t)) end
  else if (ch =? 47) && is_pico8 lang && next_is (Z.eqb 47) t then Some (false, take_line (skipn 1 t))
  else None.
(** [add_token], l.363-374: the first token added takes what was set for the next one. *)
Definition attach (m : mods) (a : list tok) : list (tok * mods) :=
  match a with [] => [] | t :: a => (t, m) :: map (fun t => (t, no_mods)) a end.
(** [tokenize] with hints: the tokens, and what the token at the end of the text gets (l.698-699).
    The error of a comment in brackets that does not end is added before the comment is read as one line (l.562, l.680). *)
Fixpoint tok_loop_hints (fuel : nat) (lang : language) (m : mods) (s : list Z) : res (list (tok * mods) * mods) :=
  match s with
  | [] => Ok ([], m)
  | ch :: t =>
      match fuel with
      | O => Err EFuel
      | S fuel =>
          match tok_round lang ch t with
          | Hang => Err EFuel
          | Round a r =>
              let m1 := match a with [] => m | _ => no_mods end in
              let m2 := match round_comment lang ch t with Some (b, c) => process_comment b c m1 | None => m1 end in
              b <- tok_loop_hints fuel lang m2 r ;; Ok (attach m a ++ fst b, snd b)
          end
      end
  end.
Definition tokenize_hints (lang : language) (s : list Z) : res (list (tok * mods) * mods) := tok_loop_hints (length s) lang no_mods s.
End Hints.
