(** Model of the parts of Picotron carts that handle sets of files: path filters
    (/repo/picotron_defs.py l.158-173), the order of files (l.224-247), filtering and
    merging carts (/repo/picotron_cart.py l.671-675, l.734-744); and of the aliases of
    hints (/repo/pico_process.py l.231-244).  Strings are lists of characters; a dict
    is a list of pairs in the order of insertion. *)
From Verif Require Import M_Base.
Open Scope Z_scope.

Definition path := list Z.

(* ------------------------------------------------------------------ *)
(** * Path filters *)

(** [Cart64Glob.__init__], l.159-166: the pattern and its action.  Compiling the
    pattern is left to [matcher] below. *)
Definition glob_regex (pattern : path) : path * bool :=
  match pattern with
  | 33 :: p => (p, false)
  | _ => (pattern, true)
  end.

Section Glob.
(** [re.compile(fnmatch.translate(pattern)).match(path)] *)
Context (matcher : path -> path -> bool).

(** the loop of [Cart64Glob.matches], l.168-173 *)
Fixpoint glob_loop (regexes : list (path * bool)) (result : bool) (p : path) : bool :=
  match regexes with
  | [] => result
  | (regex, action) :: rest =>
      if matcher regex p then
        if action then glob_loop rest action p else false
      else glob_loop rest result p
  end.
Definition glob_matches (patterns : list path) (p : path) : bool :=
  glob_loop (map glob_regex patterns) false p.

(* ------------------------------------------------------------------ *)
(** * Files *)

(** a file; [None] is a new [PicotronDir()] *)
Context {file : Type}.
Definition files := list (path * option file).

Fixpoint get (d : files) (k : path) : option (option file) :=
  match d with
  | [] => None
  | (k', v) :: d' => if zeqb_list k k' then Some v else get d' k
  end.
(** [d[k] = v]: in place, or at the end *)
Fixpoint set (d : files) (k : path) (v : option file) : files :=
  match d with
  | [] => [(k, v)]
  | (k', v') :: d' => if zeqb_list k k' then (k', v) :: d' else (k', v') :: set d' k v
  end.
Fixpoint del (d : files) (k : path) : files :=
  match d with
  | [] => []
  | (k', v') :: d' => if zeqb_list k k' then d' else (k', v') :: del d' k
  end.

(** [filter_cart64], picotron_cart.py l.671-675 *)
Definition filter_cart64 (cart : files) (sections : list path) : files :=
  let to_delete := filter (fun p => negb (glob_matches sections p)) (map fst cart) in
  fold_left del to_delete cart.

(** the order of strings *)
Fixpoint str_leb (a b : path) : bool :=
  match a, b with
  | [], _ => true
  | _, [] => false
  | x :: a', y :: b' => (x <? y) || ((x =? y) && str_leb a' b')
  end.
(** [sorted(d.items())]: the keys are distinct, so files are never compared *)
Fixpoint insert (x : path * option file) (l : files) : files :=
  match l with
  | [] => [x]
  | y :: l' => if str_leb (fst y) (fst x) then y :: insert x l' else x :: l
  end.
Definition sorted (d : files) : files := fold_left (fun acc x => insert x acc) d [].

(** [str.rstrip("/")] *)
Fixpoint lstrip_slash (s : path) : path :=
  match s with
  | 47 :: s' => lstrip_slash s'
  | _ => s
  end.
Definition rstrip_slash (s : path) : path := rev (lstrip_slash (rev s)).

(** [str_before_last(s, "/")], /repo/utils.py l.1536-1539 *)
Fixpoint drop_to_slash (s : path) : path :=
  match s with
  | [] => []
  | c :: s' => if c =? 47 then s' else drop_to_slash s'
  end.
Definition before_last_slash (s : path) : path := rev (drop_to_slash (rev s)).

(** the loop of [merge_cart64] that creates the parent directories, l.740-744 *)
Fixpoint add_parents (fuel : nat) (parent : path) (dest : files) : res files :=
  if zeqb_list parent [47] then Ok dest
  else match get dest parent with
       | Some _ => Ok dest
       | None =>
           match fuel with
           | O => Err EFuel
           | S fuel =>
               let dest := set dest parent None in
               add_parents fuel (before_last_slash (removelast parent) ++ [47]) dest
           end
       end.

(** [merge_cart64], l.734-744; [sections] is [None] for no sections.  The length of
    a path is enough fuel for its parents. *)
Definition merge_one (sections : option (list path)) (dest : res files)
    (item : path * option file) : res files :=
  let '(p, f) := item in
  dest <- dest ;;
  if match sections with None => true | Some s => glob_matches s p end then
    let dest := set dest p f in
    add_parents (length p) (before_last_slash (rstrip_slash p) ++ [47]) dest
  else Ok dest.
Definition merge_cart64 (dest src : files) (sections : option (list path)) : res files :=
  fold_left (merge_one sections) (sorted src) (Ok dest).
End Glob.

(* ------------------------------------------------------------------ *)
(** * The order of files *)

(** nodes are numbers; a graph is a dict from a node to the nodes it depends on *)
Definition graph := list (nat * list nat).
Fixpoint deps_of (g : graph) (n : nat) : option (list nat) :=
  match g with
  | [] => None
  | (m, ds) :: g' => if (n =? m)%nat then Some ds else deps_of g' n
  end.

(** collections.Counter *)
Definition counter := list (nat * Z).
Fixpoint cget (c : counter) (n : nat) : Z :=
  match c with
  | [] => 0
  | (m, v) :: c' => if (n =? m)%nat then v else cget c' n
  end.
Fixpoint cadd (c : counter) (n : nat) (d : Z) : counter :=
  match c with
  | [] => [(n, d)]
  | (m, v) :: c' => if (n =? m)%nat then (m, v + d) :: c' else (m, v) :: cadd c' n d
  end.

(** [for dep in graph[node]: ...], l.237-240; the stack's top comes first *)
Fixpoint release (deps : list nat) (c : counter) (stack : list nat) : counter * list nat :=
  match deps with
  | [] => (c, stack)
  | d :: deps' =>
      let c := cadd c d (-1) in
      release deps' c (if cget c d =? 0 then d :: stack else stack)
  end.

(** [while next: ...], l.233-240 *)
Fixpoint topo_loop (fuel : nat) (g : graph) (stack : list nat) (c : counter) (result : list nat)
  : res (list nat * counter) :=
  match stack with
  | [] => Ok (result, c)
  | node :: stack =>
      match fuel with
      | O => Err EFuel
      | S fuel =>
          match deps_of g node with
          | None => Err EKey
          | Some deps =>
              let '(c, stack) := release deps c stack in
              topo_loop fuel g stack c (result ++ [node])
          end
      end
  end.

(** [topologic_sort], l.224-247.  Each round takes another node, so their number is
    enough fuel. *)
Definition topologic_sort (g : graph) : res (list nat) :=
  let backcount := fold_left (fun c d => cadd c d 1) (concat (map snd g)) [] in
  let next := filter (fun n => cget backcount n =? 0) (map fst g) in
  '(result, c) <- topo_loop (length g) g (rev next) backcount [] ;;
  let rest := map fst (filter (fun e => negb (snd e =? 0)) c) in
  Ok (rev (result ++ rest)).

(* ------------------------------------------------------------------ *)
(** * Aliases *)

Definition alias_table := list (list Z * (list Z * list Z)).
Fixpoint alias_get (t : alias_table) (k : list Z) : option (list Z * list Z) :=
  match t with
  | [] => None
  | (k', v) :: t' => if zeqb_list k k' then Some v else alias_get t' k
  end.
(** [custom_aliases[source] = (target, args)], l.231-234; the order does not matter *)
Definition add_custom_alias (t : alias_table) (source target args : list Z) : alias_table :=
  (source, (target, args)) :: t.

(** [if pre_args: ...], l.239-243 *)
Definition join_args (pre args : list Z) : list Z :=
  match pre, args with
  | [], _ => args
  | _, [] => pre
  | _, _ => pre ++ 32 :: args
  end.

(** [map_aliases], l.236-244; [strip] is [str.strip] *)
Fixpoint map_aliases (strip : list Z -> list Z) (fuel : nat) (t : alias_table) (name args : list Z)
  : res (list Z * list Z) :=
  match alias_get t name with
  | None => Ok (name, strip args)
  | Some (target, pre) =>
      match fuel with
      | O => Err EFuel
      | S fuel => map_aliases strip fuel t target (join_args pre args)
      end
  end.

(** the hint "def-alias: source=name args", /repo/pico_tokenize.py l.487-491 with
    [split_hint_args] l.12-17: the target is resolved first.  [source], [name] and [args]
    are given stripped. *)
Definition def_alias (strip : list Z -> list Z) (fuel : nat) (t : alias_table)
    (def : list Z * list Z * list Z) : res alias_table :=
  let '(source, name, args) := def in
  '(name, args) <- map_aliases strip fuel t name args ;;
  Ok (add_custom_alias t source name args).
Fixpoint def_aliases (strip : list Z -> list Z) (fuel : nat) (t : alias_table)
    (defs : list (list Z * list Z * list Z)) : res alias_table :=
  match defs with
  | [] => Ok t
  | d :: defs => t <- def_alias strip fuel t d ;; def_aliases strip fuel t defs
  end.
