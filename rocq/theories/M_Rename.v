(** Model of renaming: the rules that say what is preserved, the scopes the
    parser builds, the stream of new identifiers and the choice of a new name
    for every variable (pico_rename.py, and the scopes of pico_parse.py).

    Simplifications, everywhere in this file:
    - A program is reduced to the names in it and the constructs that open
      scopes ([syn]): expressions keep only the names they mention.
    - Renaming hints in comments (rename, keys_kind, var_kind), sub-languages,
      strings read as identifiers, compiler switches and constants given on the
      command line are not modelled. *)
From Verif Require Import M_Base.
From Coq Require Import String Ascii List.
Import ListNotations.
Open Scope Z_scope.

Definition name := list Z.
Definition str (s : string) : name :=
  map (fun c => Z.of_nat (nat_of_ascii c)) (list_ascii_of_string s).

(** list membership *)
Definition mem (n : name) (l : list name) : bool := existsb (zeqb_list n) l.
Definition zmem (c : Z) (l : list Z) : bool := existsb (Z.eqb c) l.

(* ------------------------------------------------------------------ *)
(** * Preserve rules (pico_rename.py l.9-107) *)

(** re.compile(fnmatch.translate(p)).match(s) of the Python library, for
    patterns of plain characters, "?" and "*".  Character sets "[...]" are not
    modelled: "[" is taken as a plain character. *)
Fixpoint fnmatch (p s : list Z) {struct p} : bool :=
  match p with
  | [] => match s with [] => true | _ => false end
  | c :: p' =>
      if c =? 42 then
        (fix any s := fnmatch p' s || match s with [] => false | _ :: s' => any s' end) s
      else match s with
           | [] => false
           | x :: s' => ((c =? 63) || (c =? x)) && fnmatch p' s'
           end
  end.

(** IncludeExcludeMapping (pico_rename.py l.9-16).  [i_dict] is the dict as an
    association list, newest entry first; None = no value. *)
Record iemap := { i_dict : list (name * bool); i_default : option bool;
                  i_regexs : list (name * bool) }.

Fixpoint dict_get {A} (d : list (name * A)) (k : name) : option A :=
  match d with
  | [] => None
  | (k', v) :: d' => if zeqb_list k k' then Some v else dict_get d' k
  end.

Definition opt_or {A} (a b : option A) : option A :=
  match a with Some _ => a | None => b end.

(** IncludeExcludeMapping.__init__ (l.12-15) *)
Definition ie_init (keys : list name) : iemap :=
  {| i_dict := map (fun k => (k, true)) keys; i_default := None; i_regexs := [] |}.

(** IncludeExcludeMapping.set (l.17-25) *)
Definition ie_set (m : iemap) (key : name) (value : bool) : iemap :=
  if zeqb_list key [42] then
    {| i_dict := i_dict m; i_default := Some value; i_regexs := i_regexs m |}
  else if negb (zmem 42 key) then
    {| i_dict := (key, value) :: i_dict m; i_default := i_default m; i_regexs := i_regexs m |}
  else
    {| i_dict := i_dict m; i_default := i_default m;
       i_regexs := i_regexs m ++ [(key, value)] |}.

(** the loop over the regexes (l.32-39); a regex is kept as its pattern *)
Fixpoint ie_loop (rs : list (name * bool)) (key : name) (value : option bool) : bool :=
  match rs with
  | [] => match value with Some b => b | None => false end
  | (re, v) :: rs' =>
      if fnmatch re key then
        if v then ie_loop rs' key (Some v) else false
      else ie_loop rs' key value
  end.

(** IncludeExcludeMapping.__contains__ (l.27-39) *)
Definition ie_contains (m : iemap) (key : name) : bool :=
  let value := opt_or (dict_get (i_dict m) key) (i_default m) in
  match value with
  | Some false => false
  | _ => ie_loop (i_regexs m) key value
  end.

(** TableMemberPairIncludeExcludeMapping (l.41-49) *)
Record tmmap := { t_table : list (name * bool); t_member : list (name * bool);
                  t_pair : list ((name * name) * bool); t_default : option bool;
                  t_regexs : list ((name * name) * bool) }.

Definition eq_pair (a b : name * name) : bool :=
  zeqb_list (fst a) (fst b) && zeqb_list (snd a) (snd b).

Fixpoint pair_get (d : list ((name * name) * bool)) (k : name * name) : option bool :=
  match d with
  | [] => None
  | (k', v) :: d' => if eq_pair k k' then Some v else pair_get d' k
  end.

(** __init__ with members only, as called at l.89 *)
Definition tm_init (members : list name) : tmmap :=
  {| t_table := []; t_member := map (fun k => (k, true)) members; t_pair := [];
     t_default := None; t_regexs := [] |}.

(** TableMemberPairIncludeExcludeMapping.set (l.51-65) *)
Definition tm_set (m : tmmap) (table member : name) (value : bool) : tmmap :=
  if zeqb_list table [42] && zeqb_list member [42] then
    {| t_table := t_table m; t_member := t_member m; t_pair := t_pair m;
       t_default := Some value; t_regexs := t_regexs m |}
  else if negb (zmem 42 table) && zeqb_list member [42] then
    {| t_table := (table, value) :: t_table m; t_member := t_member m; t_pair := t_pair m;
       t_default := t_default m; t_regexs := t_regexs m |}
  else if zeqb_list table [42] && negb (zmem 42 member) then
    {| t_table := t_table m; t_member := (member, value) :: t_member m; t_pair := t_pair m;
       t_default := t_default m; t_regexs := t_regexs m |}
  else if negb (zmem 42 table) && negb (zmem 42 member) then
    {| t_table := t_table m; t_member := t_member m;
       t_pair := ((table, member), value) :: t_pair m;
       t_default := t_default m; t_regexs := t_regexs m |}
  else
    {| t_table := t_table m; t_member := t_member m; t_pair := t_pair m;
       t_default := t_default m; t_regexs := t_regexs m ++ [((table, member), value)] |}.

(** the loop over the regexes (l.77-84) *)
Fixpoint tm_loop (rs : list ((name * name) * bool)) (table member : name)
    (value : option bool) : bool :=
  match rs with
  | [] => match value with Some b => b | None => false end
  | ((tr, mr), v) :: rs' =>
      if fnmatch tr table && fnmatch mr member then
        if v then tm_loop rs' table member (Some v) else false
      else tm_loop rs' table member value
  end.

(** TableMemberPairIncludeExcludeMapping.__contains__ (l.67-84), called with a
    pair; the form with a bare member, used for sub-languages, is not modelled *)
Definition tm_contains (m : tmmap) (table member : name) : bool :=
  let value := opt_or (pair_get (t_pair m) (table, member))
                (opt_or (dict_get (t_table m) table)
                  (opt_or (dict_get (t_member m) member) (t_default m))) in
  match value with
  | Some false => false
  | _ => tm_loop (t_regexs m) table member value
  end.

(** rule.split(".", 1) of the Python library, when there is a "." *)
Fixpoint split_dot (r : name) : name * name :=
  match r with
  | [] => ([], [])
  | c :: r' => if c =? 46 then ([], r')
               else let '(a, b) := split_dot r' in (c :: a, b)
  end.

(** the preserve rules read so far (l.88-89, l.109) *)
Record rules := { r_globals : iemap; r_members : tmmap; r_as_globals : bool }.

(** add_rule (pico_rename.py l.93-107) *)
Definition add_rule (rs : rules) (rule : name) : rules :=
  let '(value, rule) := match rule with
                        | c :: r => if c =? 33 then (false, r) else (true, rule)
                        | [] => (true, rule)
                        end in
  let mag := r_as_globals rs ||
             (zmem 61 rule && (zeqb_list rule (str "*=*.*") || zeqb_list rule (str "*.*=*"))) in
  if zmem 46 rule then
    let '(t, m) := split_dot rule in
    {| r_globals := r_globals rs; r_members := tm_set (r_members rs) t m value;
       r_as_globals := mag |}
  else
    {| r_globals := ie_set (r_globals rs) rule value; r_members := r_members rs;
       r_as_globals := mag |}.

(** l.87-113, and l.121-126 for rules in comments: all the rules, in order.
    safe-only mode (l.168-177) is not modelled. *)
Definition read_rules (builtins builtin_members : list name) (rs : list name) : rules :=
  fold_left add_rule rs
    {| r_globals := ie_init builtins; r_members := tm_init builtin_members;
       r_as_globals := false |}.

(* ------------------------------------------------------------------ *)
(** * The stream of new identifiers (pico_rename.py l.146-163, l.332-356) *)

(** str.isdigit of the Python library on characters below 256 *)
Definition isdigit (c : Z) : bool :=
  ((48 <=? c) && (c <=? 57)) || (c =? 178) || (c =? 179) || (c =? 185).

(** range(a, b) *)
Definition zrange_ab (a b : Z) : list Z :=
  map (fun i => a + Z.of_nat i) (seq 0 (Z.to_nat (b - a))).

(** k_identifier_chars (l.147-152): [focus] is 1 for focus.chars, 2 for
    focus.compressed, 0 otherwise *)
Definition k_identifier_chars (focus : nat) : list Z :=
  let lower := zrange_ab 97 123 in
  let upper := zrange_ab 65 91 in
  let digits := zrange_ab 48 58 in
  match focus with
  | 1%nat => lower ++ upper ++ digits ++ [95; 30; 31] ++ zrange_ab 128 256
  | 2%nat => lower ++ digits ++ [95]
  | _ => lower ++ upper ++ digits ++ [95]
  end.

(** ident_chars (l.154-161); [used] is the list of distinct characters of the
    cart, most used first (the sorted keys of char_uses) *)
Definition ident_chars (used alphabet : list Z) : list Z :=
  let first := filter (fun c => zmem c alphabet) used in
  first ++ filter (fun c => negb (zmem c first)) alphabet.

Section Idents.
Context (chars : list Z).

(** ident_char_order_map (l.163): the character after [c] *)
Definition char_after (c : Z) : option Z :=
  (fix go l := match l with
   | a :: ((b :: _) as l') => if c =? a then Some b else go l'
   | _ => None
   end) chars.

(** the loop of get_next_ident_char (l.336-337) *)
Fixpoint skip_digits (fuel : nat) (c : option Z) : option Z :=
  match c with
  | Some x => if isdigit x then
                match fuel with O => None | S f => skip_digits f (char_after x) end
              else c
  | None => None
  end.

(** get_next_ident_char (l.334-341) *)
Definition get_next_ident_char (ch : option Z) (first : bool) : Z * bool :=
  let nextch := match ch with Some c => char_after c | None => hd_error chars end in
  let nextch := if first then skip_digits (length chars) nextch else nextch in
  match nextch with
  | Some c => (c, true)
  | None => (hd 0 chars, false)
  end.

(** the loop of get_idents over the characters from the right (l.348-352);
    the result says whether it was left by "break" *)
Fixpoint bump (first : bool) (s : list Z) : list Z * bool :=
  match s with
  | [] => ([], false)
  | c :: s' =>
      let '(s'', found) := bump false s' in
      if found then (c :: s'', true)
      else let '(c', found) := get_next_ident_char (Some c) first in (c' :: s'', found)
  end.

(** one round of get_idents (l.348-354) *)
Definition next_ident (s : list Z) : list Z :=
  let '(s', found) := bump true s in
  if found then s' else fst (get_next_ident_char None true) :: s'.

(** next_ident after n+1 rounds *)
Fixpoint raw_ident (n : nat) : list Z :=
  match n with O => next_ident [] | S n => next_ident (raw_ident n) end.
End Idents.

(** keywords (pico_tokenize.py l.5-10) *)
Definition keywords : list name :=
  map str ["and"; "break"; "do"; "else"; "elseif"; "end"; "false"; "for"; "function";
           "goto"; "if"; "in"; "local"; "nil"; "not"; "or"; "repeat"; "return"; "then";
           "true"; "until"; "while"]%string.

(** the first n rounds of the generator (l.347-356): what it yields in them *)
Definition get_idents (chars : list Z) (n : nat) : list name :=
  filter (fun i => negb (mem i keywords)) (map (raw_ident chars) (seq 0 n)).

(* ------------------------------------------------------------------ *)
(** * Scopes (pico_parse.py l.50-116 and the parse functions that use them) *)

(** The names in a program and the constructs that give them meaning.
    [YName z n]: a variable n; z says that the token before it is a number
    ending in 0.  [YMember z t n]: a key n; t is the name of the variable
    it is a key of, or empty.  [YPrint]: the "?" statement, which uses "print".
    Lists of expressions are flattened to the names in them. *)
Inductive syn : Type :=
| YName (zero : bool) (n : name)
| YMember (zero : bool) (table n : name)
| YPrint
| YLocal (ns : list name) (es : list syn)
| YLocalFun (f : name) (ps : list name) (body : list syn)
| YFun (method : bool) (ps : list name) (body : list syn)
| YFor (ns : list name) (es body : list syn)
| YBlock (body : list syn)
| YRepeat (body cond : list syn)
| YLabel (n : name)
| YGoto (n : name).

(** A local variable: the number of the Scope that declares it, and its place
    among the names declared there.  Scopes are numbered in the order they are
    created; number 0 is the outermost one. *)
Definition var := (nat * nat)%type.

(** A label: the number of its block, and its place among the labels there.
    Two labels with the same name in the same block, an error in Lua, are taken
    as one. *)
Definition lvar := (nat * nat)%type.

(** Scope (pico_parse.py l.50-69): its number and items, newest first *)
Record frame := { f_id : nat; f_items : list (name * var) }.

(** a Scope and its parents, innermost first *)
Definition scope := list frame.

(** Scope.find (l.61-66) *)
Fixpoint scope_find (sc : scope) (n : name) : option var :=
  match sc with
  | [] => None
  | fr :: sc' => match dict_get (f_items fr) n with
                 | Some v => Some v
                 | None => scope_find sc' n
                 end
  end.

(** Scope.chain (l.68-72): the numbers of the scopes *)
Definition chain (sc : scope) : list nat := map f_id sc.

(** the places of names in a declaration: [(n0, (id,i)); (n1, (id,i+1)); ...] *)
Fixpoint places (id i : nat) (ns : list name) : list (name * var) :=
  match ns with
  | [] => []
  | n :: ns' => (n, (id, i)) :: places id (S i) ns'
  end.

(** a new Scope with names added in order (Scope.add l.58-59: the last of two
    equal names wins) *)
Definition new_frame (id : nat) (ns : list name) : frame :=
  {| f_id := id; f_items := rev (places id 0 ns) |}.

(** LabelScope (l.93-121): the labels of the blocks around, innermost first, up
    to the function boundary (funcdepth, l.105, l.112) *)
Definition labels := list (nat * list name).

(** the labels declared directly in a block (parse_stmt l.950-954) *)
Definition block_labels (body : list syn) : list name :=
  flat_map (fun t => match t with YLabel n => [n] | _ => [] end) body.

Fixpoint index_of (n : name) (l : list name) : option nat :=
  match l with
  | [] => None
  | x :: l' => if zeqb_list n x then Some O else option_map S (index_of n l')
  end.

(** LabelScope.find (l.102-107) *)
Fixpoint find_label (ls : labels) (n : name) : option lvar :=
  match ls with
  | [] => None
  | (id, names) :: ls' => match index_of n names with
                          | Some i => Some (id, i)
                          | None => find_label ls' n
                          end
  end.

(** kinds of names (VarKind, l.8-9), with the variable *)
Inductive kind :=
| KLocal (v : var)
| KGlobal
| KMember (table : name)
| KLabel (v : option lvar). (* None: "Unknown label" *)

(** a node of type var: [n_chain] numbers the scopes from node.scope outwards *)
Record node := { n_name : name; n_kind : kind; n_chain : list nat;
                 n_implicit : bool; n_zero : bool }.

Definition env_name : name := str "_ENV".
Definition print_name : name := str "print".
Definition self_name : name := str "self".

(** parse_var for a name used (pico_parse.py l.372-455): the node, and for a
    global its extra child for _ENV *)
Definition var_nodes (sc : scope) (zero implicit : bool) (n : name) : list node :=
  match scope_find sc n with
  | Some v => [{| n_name := n; n_kind := KLocal v; n_chain := chain sc;
                  n_implicit := implicit; n_zero := zero |}]
  | None =>
      {| n_name := n; n_kind := KGlobal; n_chain := chain sc;
         n_implicit := implicit; n_zero := zero |} ::
      match scope_find sc env_name with
      | Some v => [{| n_name := env_name; n_kind := KLocal v; n_chain := chain sc;
                      n_implicit := true; n_zero := false |}]
      | None => []
      end
  end.

(** parse_var(new=newscope) for the names declared in scope number [id] *)
Fixpoint new_nodes (id i : nat) (up : list nat) (implicit : list bool) (ns : list name) : list node :=
  match ns with
  | [] => []
  | n :: ns' =>
      {| n_name := n; n_kind := KLocal (id, i); n_chain := id :: up;
         n_implicit := hd false implicit; n_zero := false |}
      :: new_nodes id (S i) up (tl implicit) ns'
  end.

Section Walk.
(** the name written for a node: its own name when parsing, the new name when
    renaming *)
Context (f : node -> name).

(** the names declared, as written *)
Definition written (ns : list node) : list name := map f ns.

(** The parser's handling of scopes, and the traversal of the tree it makes:
    the tree with each name written by [f], the nodes in order, and the next
    free numbers of scopes and blocks.
    - parse_local l.844-860, parse_function l.457-538, parse_for l.772-818,
      parse_block l.970-1003, parse_repeat l.755-761, parse_print l.833-842,
      goto and labels l.946-954 with late_resolve_labels l.1005-1012.
    The extra node of the "self" parameter is listed with the other
    parameters.  A scope and a label scope are lists here: the parser adds the
    names of a scope before anything is looked up in it, and looks labels up
    only after the block ended. *)
Definition state := (nat * nat)%type.

Fixpoint walk (sc : scope) (ls : labels) (k : state) (t : syn) {struct t}
  : syn * list node * state * scope :=
  let walks :=
    fix walks (sc : scope) (ls : labels) (k : state) (l : list syn) {struct l}
      : list syn * list node * state * scope :=
      match l with
      | [] => ([], [], k, sc)
      | t :: l' =>
          let '(t', n1, k, sc) := walk sc ls k t in
          let '(l'', n2, k, sc) := walks sc ls k l' in
          (t' :: l'', n1 ++ n2, k, sc)
      end in
  let block (sc : scope) (ls : labels) (k : state) (l : list syn) :=
    let '(ks, kb) := k in
    walks sc ((kb, block_labels l) :: ls) (ks, S kb) l in
  match t with
  | YName z n =>
      let ns := var_nodes sc z false n in
      (YName z (hd n (written ns)), ns, k, sc)
  | YMember z tb n =>
      let nd := {| n_name := n; n_kind := KMember tb; n_chain := chain sc;
                   n_implicit := false; n_zero := z |} in
      (YMember z tb (f nd), [nd], k, sc)
  | YPrint => (YPrint, var_nodes sc false true print_name, k, sc)
  | YLocal ns es =>
      let '(ks, kb) := k in
      let nds := new_nodes ks 0 (chain sc) [] ns in
      let '(es', n1, k, _) := walks sc ls (S ks, kb) es in
      (YLocal (written nds) es', nds ++ n1, k, new_frame ks ns :: sc)
  | YLocalFun fn ps body =>
      let '(ks, kb) := k in
      let nds := new_nodes ks 0 (chain sc) [] [fn] in
      let sc' := new_frame ks [fn] :: sc in
      let nds' := new_nodes (S ks) 0 (chain sc') [] ps in
      let '(b, n1, k, _) := block (new_frame (S ks) ps :: sc') [] (S (S ks), kb) body in
      (YLocalFun (hd fn (written nds)) (written nds') b, nds ++ nds' ++ n1, k, sc')
  | YFun method ps body =>
      let '(ks, kb) := k in
      let ps' := if method then self_name :: ps else ps in
      let nds := new_nodes ks 0 (chain sc) [method] ps' in
      let '(b, n1, k, _) := block (new_frame ks ps' :: sc) [] (S ks, kb) body in
      (YFun method (if method then tl (written nds) else written nds) b, nds ++ n1, k, sc)
  | YFor ns es body =>
      let '(ks, kb) := k in
      let nds := new_nodes ks 0 (chain sc) [] ns in
      let '(es', n1, k, _) := walks sc ls (S ks, kb) es in
      let '(b, n2, k, _) := block (new_frame ks ns :: sc) ls k body in
      (YFor (written nds) es' b, nds ++ n1 ++ n2, k, sc)
  | YBlock body =>
      let '(b, n1, k, _) := block sc ls k body in
      (YBlock b, n1, k, sc)
  | YRepeat body cond =>
      let '(ks, kb) := k in
      let ls' := (kb, block_labels body) :: ls in
      let '(b, n1, k, sc') := walks sc ls' (ks, S kb) body in
      let '(c, n2, k, _) := walks sc' ls' k cond in
      (YRepeat b c, n1 ++ n2, k, sc)
  | YLabel n =>
      let nd := {| n_name := n; n_kind := KLabel (find_label ls n); n_chain := map fst ls;
                   n_implicit := false; n_zero := false |} in
      (YLabel (f nd), [nd], k, sc)
  | YGoto n =>
      let nd := {| n_name := n; n_kind := KLabel (find_label ls n); n_chain := map fst ls;
                   n_implicit := false; n_zero := false |} in
      (YGoto (f nd), [nd], k, sc)
  end.

Definition walks :=
  fix walks (sc : scope) (ls : labels) (k : state) (l : list syn) {struct l}
    : list syn * list node * state * scope :=
    match l with
    | [] => ([], [], k, sc)
    | t :: l' =>
        let '(t', n1, k, sc) := walk sc ls k t in
        let '(l'', n2, k, sc) := walks sc ls k l' in
        (t' :: l'', n1 ++ n2, k, sc)
    end.

(** parse (l.302-330, l.1014-1050): the outermost scope declares _ENV and the
    local builtins *)
Definition walk_root (builtins : list name) (prog : list syn) : list syn * list node :=
  let '(l, ns, _, _) :=
    walks [new_frame 0 (env_name :: builtins)] [(0%nat, block_labels prog)] (1%nat, 1%nat) prog in
  (l, ns).
End Walk.

(** the var nodes of a program, in order *)
Definition parse (builtins : list name) (prog : list syn) : list node :=
  snd (walk_root n_name builtins prog).

(* ------------------------------------------------------------------ *)
(** * Choosing the new names (pico_rename.py l.179-330, l.358-444) *)

(** the options and rules that matter: [o_builtins] = ctxt.builtins |
    ctxt.builtin_callbacks, [o_locals] = ctxt.local_builtins *)
Record opts := { o_pico8 : bool; o_focus_chars : bool;
                 o_builtins : list name; o_members : list name; o_locals : list name;
                 o_rules : rules; o_chars : list Z }.

(** a variable, as the renamer sees it (VarBase, l.11-48) *)
Inductive vid := VLocal (v : var) | VGlobal (n : name) | VMember (n : name) | VLabel (v : lvar).

Definition var_eqb (a b : var) : bool :=
  (fst a =? fst b)%nat && (snd a =? snd b)%nat.
Definition vid_eqb (a b : vid) : bool :=
  match a, b with
  | VLocal v, VLocal w => var_eqb v w
  | VGlobal n, VGlobal m => zeqb_list n m
  | VMember n, VMember m => zeqb_list n m
  | VLabel v, VLabel w => var_eqb v w
  | _, _ => false
  end.

Section Rename.
Context (o : opts) (nodes : list node).

(** var.implicit (pico_parse.py l.418-419), set while parsing *)
Definition implicit_local (v : var) : bool :=
  existsb (fun nd => n_implicit nd &&
                     match n_kind nd with KLocal w => var_eqb v w | _ => false end) nodes.
Definition implicit_global (n : name) : bool :=
  existsb (fun nd => n_implicit nd &&
                     match n_kind nd with KGlobal => zeqb_list n (n_name nd) | _ => false end) nodes.

(** var.builtin: the variables of the outermost scope other than _ENV *)
Definition builtin_local (v : var) : bool := (fst v =? 0)%nat && negb (snd v =? 0)%nat.

(** compute_effective_kind (l.199-263): the variable to rename, or None with
    the name to exclude (the additions to global_excludes, member_excludes and
    local_excludes) *)
Inductive effect :=
| Rename (v : vid)
| Keep (exclude : option vid).

Definition effective_global (n : name) (implicit : bool) : effect :=
  if implicit || ie_contains (r_globals (o_rules o)) n then Keep (Some (VGlobal n))
  else Rename (VGlobal n).

Definition effective (nd : node) : effect :=
  match n_kind nd with
  | KMember table =>
      if tm_contains (r_members (o_rules o)) table (n_name nd) then
        Keep (Some (VMember (n_name nd)))
      else if zeqb_list table env_name || r_as_globals (o_rules o) then
        effective_global (n_name nd) false
      else Rename (VMember (n_name nd))
  | KGlobal => effective_global (n_name nd) (implicit_global (n_name nd))
  | KLocal v =>
      if implicit_local v ||
         (builtin_local v && ie_contains (r_globals (o_rules o)) (n_name nd)) then
        Keep (Some (VLocal v))
      else if zeqb_list (n_name nd) env_name then Keep None
      else Rename (VLocal v)
  | KLabel (Some v) => Rename (VLabel v)
  | KLabel None => Keep None
  end.

(** global_excludes, member_excludes (l.188-189 and the additions), and the
    variables of local_excludes[ident] *)
Definition global_excludes : list name :=
  o_builtins o ++
  flat_map (fun nd => match effective nd with Keep (Some (VGlobal n)) => [n] | _ => [] end) nodes.
Definition member_excludes : list name :=
  o_members o ++
  flat_map (fun nd => match effective nd with Keep (Some (VMember n)) => [n] | _ => [] end) nodes.
Definition local_excludes (ident : name) : list vid :=
  flat_map (fun nd => match effective nd with
                      | Keep (Some (VLocal v)) =>
                          if zeqb_list (n_name nd) ident then [VLocal v] else []
                      | _ => [] end) nodes.

(** scope.used_globals (l.295-300), for a scope number *)
Definition nmem (x : nat) (l : list nat) : bool := existsb (Nat.eqb x) l.
Definition used_global (s : nat) (n : name) : bool :=
  existsb (fun nd => match n_kind nd with
                     | KGlobal => zeqb_list n (n_name nd) && nmem s (n_chain nd)
                     | _ => false end) nodes.

(** a chain up to and including scope [s] (l.303-307) *)
Fixpoint upto (s : nat) (l : list nat) : list nat :=
  match l with
  | [] => []
  | x :: l' => x :: (if (x =? s)%nat then [] else upto s l')
  end.

(** scope.used_locals (l.302-307), for locals and for labels *)
Definition used_local (s : nat) (v : var) : bool :=
  existsb (fun nd => match n_kind nd with
                     | KLocal w => var_eqb v w && nmem s (upto (fst w) (n_chain nd))
                     | _ => false end) nodes.
Definition used_label (s : nat) (v : lvar) : bool :=
  existsb (fun nd => match n_kind nd with
                     | KLabel (Some w) =>
                         var_eqb v w &&
                         nmem s (if o_pico8 o then upto (fst w) (n_chain nd) else n_chain nd)
                     | _ => false end) nodes.

(** are_vars_compatible (l.358-380).  scope.used_members is always empty without
    hints. *)
Definition compatible (a b : vid) : bool :=
  match a, b with
  | VGlobal _, VGlobal _ | VMember _, VMember _ => false
  | VGlobal _, VMember _ | VMember _, VGlobal _ => true
  | VGlobal n, VLocal v | VLocal v, VGlobal n => negb (used_global (fst v) n)
  | VMember _, VLocal _ | VLocal _, VMember _ => true
  | VLabel _, VGlobal _ | VGlobal _, VLabel _ => true
  | VLabel _, VMember _ | VMember _, VLabel _ => true
  | VLocal v, VLocal w => negb (used_local (fst w) v) && negb (used_local (fst v) w)
  | VLabel v, VLabel w => negb (used_label (fst w) v) && negb (used_label (fst v) w)
  | VLocal _, VLabel _ | VLabel _, VLocal _ => true
  end.

(** the distinct elements of a list in the order of first appearance: the keys
    of a CounterDictionary *)
Definition vmem (v : vid) (l : list vid) : bool := existsb (vid_eqb v) l.
Fixpoint keys (seen : list vid) (l : list vid) : list vid :=
  match l with
  | [] => []
  | v :: l' => if vmem v seen then keys seen l' else v :: keys (v :: seen) l'
  end.
Definition count (v : vid) (l : list vid) : nat := length (filter (vid_eqb v) l).

(** sorted(uses, key=..., reverse=True) (l.382-385): stable, most used first *)
Fixpoint insert_by (c : vid -> nat) (v : vid) (l : list vid) : list vid :=
  match l with
  | [] => [v]
  | x :: l' => if (c v <=? c x)%nat then x :: insert_by c v l' else v :: l
  end.
Definition sorted_uses (l : list vid) : list vid :=
  fold_left (fun acc v => insert_by (fun v => count v l) v acc) (keys [] l) [].

(** the uses of variables of a kind, in order (l.276-292) *)
Definition uses (which : vid -> bool) : list vid :=
  flat_map (fun nd => match effective nd with
                      | Rename v => if which v then [v] else []
                      | _ => [] end) nodes.
Definition is_local v := match v with VLocal _ => true | _ => false end.
Definition is_global v := match v with VGlobal _ => true | _ => false end.
Definition is_member v := match v with VMember _ => true | _ => false end.
Definition is_label v := match v with VLabel _ => true | _ => false end.

(** locals_after_zero, globals_after_zero and members_after_zero (l.278-289) *)
Definition after_zero (v : vid) : bool :=
  existsb (fun nd => n_zero nd &&
                     match effective nd with Rename w => vid_eqb v w | _ => false end) nodes.

(** try_select_var (l.389-401): whether [v] is selected *)
Definition try_select (excluded : list vid) (avoid : vid -> bool) (v : vid) : bool :=
  negb (avoid v) && forallb (compatible v) excluded.

(** select_var (l.403-408), which takes the first variable it can *)
Fixpoint select_var (remaining excluded : list vid) (avoid : vid -> bool)
  : list vid * list vid * list vid (* remaining, excluded, selected *) :=
  match remaining with
  | [] => ([], excluded, [])
  | v :: r =>
      if try_select excluded avoid v then (r, excluded ++ [v], [v])
      else let '(r', e', s) := select_var r excluded avoid in (v :: r', e', s)
  end.

(** select_vars (l.410-413), which takes all it can, going on from the place of
    the last one taken *)
Fixpoint select_vars (remaining excluded : list vid) (avoid : vid -> bool)
  : list vid * list vid * list vid :=
  match remaining with
  | [] => ([], excluded, [])
  | v :: r =>
      if try_select excluded avoid v then
        let '(r', e', s) := select_vars r (excluded ++ [v]) avoid in (r', e', v :: s)
      else let '(r', e', s) := select_vars r excluded avoid in (v :: r', e', s)
  end.

(** what is left to rename *)
Record todo := { d_locals : list vid; d_globals : list vid; d_members : list vid;
                 d_labels : list vid }.

Definition done (d : todo) : bool :=
  match d_locals d, d_globals d, d_members d, d_labels d with
  | [], [], [], [] => true
  | _, _, _, _ => false
  end.

(** the body of the loop over identifiers (l.419-444): what is left, and the
    variables that are renamed to [ident] *)
Definition choose (ident : name) (d : todo) : todo * list vid :=
  let avoid v :=
    o_pico8 o && zmem (hd 0 ident) (str "bxBX") && after_zero v in
  let '(d, s1) :=
    if zeqb_list ident env_name then (d, [])
    else
      let excluded :=
        (if mem ident global_excludes then [VGlobal ident] else []) ++
        (if mem ident member_excludes then [VMember ident] else []) ++
        local_excludes ident in
      if negb (o_focus_chars o) then
        let '(rl, e1, s1) := select_vars (d_locals d) excluded avoid in
        let '(rg, e2, s2) := select_var (d_globals d) e1 avoid in
        let '(rm, _, s3) := select_var (d_members d) e2 avoid in
        ({| d_locals := rl; d_globals := rg; d_members := rm; d_labels := d_labels d |},
         s1 ++ s2 ++ s3)
      else
        let '(rg, e1, s1) := select_var (d_globals d) excluded avoid in
        let '(rm, e2, s2) := select_var (d_members d) e1 avoid in
        let '(rl, _, s3) := select_vars (d_locals d) e2 avoid in
        ({| d_locals := rl; d_globals := rg; d_members := rm; d_labels := d_labels d |},
         s1 ++ s2 ++ s3)
  in
  let '(rb, _, s4) := select_vars (d_labels d) [] (fun _ => false) in
  ({| d_locals := d_locals d; d_globals := d_globals d; d_members := d_members d;
      d_labels := rb |}, s1 ++ s4).

(** local_renames, global_renames, member_renames and label_renames together *)
Definition renames := list (vid * name).

(** the loop over identifiers (l.415-444); [ident] is the last identifier tried *)
Fixpoint assign (fuel : nat) (ident : name) (d : todo) (acc : renames) : res renames :=
  if done d then Ok acc
  else match fuel with
       | O => Err EFuel
       | S fuel =>
           let ident := next_ident (o_chars o) ident in
           if mem ident keywords then assign fuel ident d acc
           else let '(d', s) := choose ident d in
                assign fuel ident d' (acc ++ map (fun v => (v, ident)) s)
       end.

Definition todo0 : todo :=
  {| d_locals := sorted_uses (uses is_local); d_globals := sorted_uses (uses is_global);
     d_members := sorted_uses (uses is_member); d_labels := sorted_uses (uses is_label) |}.

Fixpoint lookup (rn : renames) (v : vid) : option name :=
  match rn with
  | [] => None
  | (w, n) :: rn' => if vid_eqb v w then Some n else lookup rn' v
  end.

(** update_idents (l.468-492): the name a node gets; a variable without a new
    name would be a KeyError *)
Definition new_name (rn : renames) (nd : node) : name :=
  match effective nd with
  | Rename v => match lookup rn v with Some n => n | None => n_name nd end
  | Keep _ => n_name nd
  end.
End Rename.

(** the labels used exist (late_resolve_labels l.1005-1012: otherwise "Unknown
    label" is reported and nothing is written) *)
Definition labels_ok (nodes : list node) : bool :=
  forallb (fun nd => match n_kind nd with KLabel None => false | _ => true end) nodes.

(** rename_tokens (l.86-498), on the program [prog] *)
Definition rename_tokens (o : opts) (fuel : nat) (prog : list syn) : res (list syn) :=
  let nodes := parse (o_locals o) prog in
  _ <- check_ (labels_ok nodes) ;;
  rn <- assign o nodes fuel [] (todo0 o nodes) [] ;;
  Ok (fst (walk_root (new_name o nodes rn) (o_locals o) prog)).
