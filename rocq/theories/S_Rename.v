(** What renaming is about, said without the renamer: the order of generated
    identifiers, which variable each name in a program means (the scoping rules
    of Lua), and what it is for a program to be a renaming of another. *)
From Verif Require Import M_Base M_Rename.

(* ------------------------------------------------------------------ *)
(** * Identifiers *)

(** [c] comes before [d] in the list of characters *)
Definition char_before (chars : list Z) (c d : Z) : Prop :=
  exists a b e, chars = a ++ c :: b ++ d :: e.

(** [s] comes before [t]: it is shorter, or as long and at the first
    difference its character comes first *)
Definition ident_before (chars : list Z) (s t : name) : Prop :=
  (length s < length t)%nat \/
  (length s = length t /\
   exists p c d s' t', s = p ++ c :: s' /\ t = p ++ d :: t' /\ char_before chars c d).

(** a name made of the given characters that does not start with a digit *)
Definition valid_ident (chars : list Z) (s : name) : Prop :=
  s <> [] /\ (forall c, In c s -> In c chars) /\ isdigit (hd 0%Z s) = false.

(* ------------------------------------------------------------------ *)
(** * Which variable a name means *)

(** A declaration of locals (a local statement, a local function, the
    parameters of a function, the variables of a for) is known by its number, in
    the order of the text; a local by its declaration and its place in it. *)
Definition local_id := (nat * nat)%type.
(** A label is known by its block and its place in it. *)
Definition label_id := (nat * nat)%type.

(** an occurrence of a name, and what it means *)
Inductive occ :=
| OLocal (n : name) (v : local_id)          (* declares or uses the local v *)
| OGlobal (n : name)                        (* no local of that name: _ENV.n *)
| OMember (table n : name)                  (* a key of a table: of the variable [table],
                                               or empty *)
| OLabel (n : name) (v : option label_id).  (* declares or goes to the label v *)

(** the first entry for a name; later declarations come first *)
Fixpoint meaning {A} (env : list (name * A)) (n : name) : option A :=
  match env with
  | [] => None
  | (m, v) :: env' => if zeqb_list n m then Some v else meaning env' n
  end.

Definition declare (id : nat) (ns : list name) : list (name * (nat * nat)) :=
  combine ns (combine (repeat id (length ns)) (seq 0 (length ns))).

(** a variable mentioned: a local if one of that name is visible, else the key
    of that name of the variable _ENV *)
Definition mention (env : list (name * local_id)) (n : name) : list occ :=
  match meaning env n with
  | Some v => [OLocal n v]
  | None => OGlobal n :: match meaning env env_name with
                         | Some v => [OLocal env_name v]
                         | None => []
                         end
  end.

Definition declared (id : nat) (ns : list name) : list occ :=
  map (fun '(n, v) => OLocal n v) (declare id ns).

(** The scoping rules of Lua.  [env]: the locals visible, newest first; [lab]:
    the labels visible, innermost block first; the pair of numbers: the next
    declaration and the next block.  A local is visible from the statement after
    its declaration to the end of the block; the name of a local function and
    the variables of a for or function in its body; the locals of a repeat also
    in its condition.  A label is visible in all of its block and the blocks
    inside, but not in the functions inside. *)
Fixpoint occs (env : list (name * local_id)) (lab : list (name * label_id))
    (k : nat * nat) (t : syn) {struct t}
  : list occ * (nat * nat) * list (name * local_id) :=
  let all :=
    fix all (env : list (name * local_id)) (lab : list (name * label_id))
        (k : nat * nat) (l : list syn) {struct l} :=
      match l with
      | [] => ([], k, env)
      | t :: l' => let '(o1, k, env) := occs env lab k t in
                   let '(o2, k, env) := all env lab k l' in
                   (o1 ++ o2, k, env)
      end in
  let labels_of (b : nat) (l : list syn) :=
    declare b (flat_map (fun t => match t with YLabel n => [n] | _ => [] end) l) in
  match t with
  | YName _ n => (mention env n, k, env)
  | YMember _ t n => ([OMember t n], k, env)
  | YPrint => (mention env print_name, k, env)
  | YLocal ns es =>
      let '(o, k', _) := all env lab (S (fst k), snd k) es in
      (declared (fst k) ns ++ o, k', rev (declare (fst k) ns) ++ env)
  | YLocalFun f ps body =>
      let env' := rev (declare (fst k) [f]) ++ env in
      let d := S (fst k) in
      let '(o, k', _) := all (rev (declare d ps) ++ env') (labels_of (snd k) body)
                             (S d, S (snd k)) body in
      (declared (fst k) [f] ++ declared d ps ++ o, k', env')
  | YFun method ps body =>
      let ps := if method then self_name :: ps else ps in
      let '(o, k', _) := all (rev (declare (fst k) ps) ++ env) (labels_of (snd k) body)
                             (S (fst k), S (snd k)) body in
      (declared (fst k) ps ++ o, k', env)
  | YFor ns es body =>
      let '(o1, k', _) := all env lab (S (fst k), snd k) es in
      let '(o2, k'', _) := all (rev (declare (fst k) ns) ++ env)
                               (labels_of (snd k') body ++ lab)
                               (fst k', S (snd k')) body in
      (declared (fst k) ns ++ o1 ++ o2, k'', env)
  | YBlock body =>
      let '(o, k', _) := all env (labels_of (snd k) body ++ lab) (fst k, S (snd k)) body in
      (o, k', env)
  | YRepeat body cond =>
      let lab' := labels_of (snd k) body ++ lab in
      let '(o1, k', env') := all env lab' (fst k, S (snd k)) body in
      let '(o2, k'', _) := all env' lab' k' cond in
      (o1 ++ o2, k'', env)
  | YLabel n | YGoto n => ([OLabel n (meaning lab n)], k, env)
  end.

(** a whole program is a block; _ENV and the built-in locals are declared
    around it, as declaration 0 *)
Definition occurrences (builtins : list name) (prog : list syn) : list occ :=
  let '(o, _, _) := occs (rev (declare 0 (env_name :: builtins))) [] (1, 0)%nat (YBlock prog) in o.

(* ------------------------------------------------------------------ *)
(** * Renaming *)

(** the two occurrences are of the same local, of the same label, both of a
    global, or both of a key of the same table *)
Definition same_use (a b : occ) : Prop :=
  match a, b with
  | OLocal _ v, OLocal _ w => v = w
  | OGlobal _, OGlobal _ => True
  | OMember t _, OMember u _ => t = u
  | OLabel _ v, OLabel _ w => v = w
  | _, _ => False
  end.

(** [a] is an occurrence in [prog], and [b] is what it became in [prog'] *)
Definition becomes (builtins : list name) (prog prog' : list syn) (a b : occ) : Prop :=
  In (a, b) (combine (occurrences builtins prog) (occurrences builtins prog')).

(** the names written just after a number that ends in 0 *)
Fixpoint after_zero_names (t : syn) : list name :=
  match t with
  | YName true n | YMember true _ n => [n]
  | YLocal _ es => flat_map after_zero_names es
  | YLocalFun _ _ body | YFun _ _ body | YBlock body => flat_map after_zero_names body
  | YFor _ es body => flat_map after_zero_names es ++ flat_map after_zero_names body
  | YRepeat body cond => flat_map after_zero_names body ++ flat_map after_zero_names cond
  | _ => []
  end.

(* ------------------------------------------------------------------ *)
(** * Preserve rules *)

(** a pattern with "*" (any text) and "?" (any character) matches a name *)
Inductive glob : name -> name -> Prop :=
| glob_nil : glob [] []
| glob_star p s t : glob p t -> glob (42%Z :: p) (s ++ t)
| glob_any p c s : glob p s -> glob (63%Z :: p) (c :: s)
| glob_char p c s : c <> 42%Z -> glob p s -> glob (c :: p) (c :: s).

(** a rule: whether it preserves (no "!" in front), and its pattern *)
Definition rule_of (r : name) : bool * name :=
  match r with
  | 33%Z :: p => (false, p)
  | _ => (true, r)
  end.

(** the rules on globals: those without "." *)
Definition global_rule (rs : list name) (value : bool) (p : name) : Prop :=
  exists r, In r rs /\ rule_of r = (value, p) /\ ~ In 46%Z p.

(** the rules on members: table and member are what is before and after the
    first "." *)
Definition member_rule (rs : list name) (value : bool) (t m : name) : Prop :=
  exists r, In r rs /\ rule_of r = (value, t ++ 46%Z :: m) /\ ~ In 46%Z t.

(** whether the last rule that satisfies [ok] preserves *)
Definition last_says (rs : list name) (ok : name -> Prop) (value : bool) : Prop :=
  exists a r b p, rs = a ++ r :: b /\ rule_of r = (value, p) /\ ok p /\
    forall r' v' p', In r' b -> rule_of r' = (v', p') -> ~ ok p'.
Definition none_says (rs : list name) (ok : name -> Prop) : Prop :=
  forall r v p, In r rs -> rule_of r = (v, p) -> ~ ok p.

Definition wildcard (p : name) : Prop := In 42%Z p /\ p <> [42%Z].

(** what the rules without wildcards say of a global: first the last rule
    that names it, then the built-in names, then the last "*" *)
Definition named_global (builtins rs : list name) (n : name) (value : bool) : Prop :=
  last_says rs (eq n) value \/
  (none_says rs (eq n) /\
   ((In n builtins /\ value = true) \/
    (~ In n builtins /\ last_says rs (eq [42%Z]) value))).

Definition preserved_global (builtins rs : list name) (n : name) : Prop :=
  (~ named_global builtins rs n false) /\
  (forall p, global_rule rs false p -> wildcard p -> ~ glob p n) /\
  (named_global builtins rs n true \/
   exists p, global_rule rs true p /\ wildcard p /\ glob p n).

(** what the rules without wildcards say of a key of a table: first the last
    rule that names both, then the last one "table.*", then the last one
    "*.key", then the built-in keys, then the last "*.*" *)
Definition star : name := [42%Z].
Definition dotted (t m : name) : name := t ++ 46%Z :: m.

Definition named_member (builtins rs : list name) (t m : name) (value : bool) : Prop :=
  last_says rs (eq (dotted t m)) value \/
  (none_says rs (eq (dotted t m)) /\
   (last_says rs (eq (dotted t star)) value \/
    (none_says rs (eq (dotted t star)) /\
     (last_says rs (eq (dotted star m)) value \/
      (none_says rs (eq (dotted star m)) /\
       ((In m builtins /\ value = true) \/
        (~ In m builtins /\ last_says rs (eq (dotted star star)) value))))))).

(** a rule on members that is not of one of those four forms *)
Definition wildcard_pair (t m : name) : Prop :=
  ~ ((~ In 42%Z t \/ t = star) /\ (~ In 42%Z m \/ m = star)).

Definition preserved_member (builtins rs : list name) (t m : name) : Prop :=
  (~ named_member builtins rs t m false) /\
  (forall pt pm, member_rule rs false pt pm -> wildcard_pair pt pm -> ~ (glob pt t /\ glob pm m)) /\
  (named_member builtins rs t m true \/
   exists pt pm, member_rule rs true pt pm /\ wildcard_pair pt pm /\ glob pt t /\ glob pm m).

(* ------------------------------------------------------------------ *)
(** * Labels *)

(** No label has the name of another label of the same block, or of a block
    around it in the same function ([outer]: the names of those): what Lua 5.4,
    and so Picotron, asks of a program. *)
Definition block_label_names (body : list syn) : list name :=
  flat_map (fun t => match t with YLabel n => [n] | _ => [] end) body.

Fixpoint labels_apart (outer : list name) (t : syn) {struct t} : Prop :=
  let block (outer : list name) (body : list syn) :=
    NoDup (block_label_names body) /\
    (forall n, In n (block_label_names body) -> ~ In n outer) /\
    (fix all l := match l with
                  | [] => True
                  | t :: l' => labels_apart (block_label_names body ++ outer) t /\ all l'
                  end) body in
  let all := fix all (outer : list name) (l : list syn) : Prop :=
    match l with
    | [] => True
    | t :: l' => labels_apart outer t /\ all outer l'
    end in
  match t with
  | YLocal _ es => all outer es
  | YLocalFun _ _ body | YFun _ _ body => block [] body
  | YFor _ es body => all outer es /\ block outer body
  | YBlock body => block outer body
  | YRepeat body cond => block outer body /\ all (block_label_names body ++ outer) cond
  | _ => True
  end.

(** no block has two labels of the same name: what PICO-8 asks of a program *)
Fixpoint labels_distinct (t : syn) {struct t} : Prop :=
  let all := fix all (l : list syn) : Prop :=
    match l with
    | [] => True
    | t :: l' => labels_distinct t /\ all l'
    end in
  match t with
  | YLocal _ es => all es
  | YLocalFun _ _ body | YFun _ _ body | YBlock body => NoDup (block_label_names body) /\ all body
  | YFor _ es body => all es /\ NoDup (block_label_names body) /\ all body
  | YRepeat body cond => NoDup (block_label_names body) /\ all body /\ all cond
  | _ => True
  end.
