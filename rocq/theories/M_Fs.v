(** Model of carts as directories: [write_cart64_to_fs] and [read_cart64_from_fs], /repo/picotron_cart.py l.547-602, and of the functions
    on paths and directories they use, /repo/utils.py l.2300-2303, l.2431-2478, on a file system.

    Simplifications: a POSIX system without symbolic links, where all that is not a directory is a file that may be read and written;
    a path is looked up as [os.path.normpath] would write it.  Names are lists of characters; "/" is 47, "." is 46. *)
From Verif Require Import M_Base M_Url M_Files.
Open Scope Z_scope.

Definition name := list Z.
(** What is in a cart, or in a file system: a directory is [None]. *)
Definition entry := option (list Z).

(* ------------------------------------------------------------------ *)
(** * Paths *)
Definition dot : name := [46].
Definition dotdot : name := [46; 46].
Fixpoint ends_slash (s : name) : bool := match s with [] => false | [c] => c =? 47 | _ :: s => ends_slash s end.
Definition starts_slash (s : name) : bool := match s with c :: _ => c =? 47 | [] => false end.
(** [os.path.join] *)
Definition path_join (a b : name) : name :=
  if starts_slash b then b else match a with [] => b | _ => if ends_slash a then a ++ b else a ++ 47 :: b end.
(** [os.path.basename]: all behind the last "/" *)
Definition path_basename (s : name) : name := last (split_all 47 [] s) [].
(** the loop of [os.path.normpath], for an absolute path *)
Fixpoint norm (done parts : list name) : list name :=
  match parts with
  | [] => done
  | p :: parts =>
      if zeqb_list p [] || zeqb_list p dot then norm done parts
      else if zeqb_list p dotdot then norm (removelast done) parts
      else norm (done ++ [p]) parts
  end.
(** The parts of [os.path.abspath]; [cwd]: the current directory *)
Definition abs (cwd p : name) : list name := norm [] (split_all 47 [] (path_join cwd p)).
(** [os.path.relpath], as a list of parts: [os.path.commonprefix] of the two lists, and on *)
Fixpoint common (a b : list name) : nat :=
  match a, b with x :: a, y :: b => if zeqb_list x y then S (common a b) else 0%nat | _, _ => 0%nat end.
Definition relpath (cwd p base : name) : res (list name) :=
  match p with
  | [] => Err EValue
  | _ => let s := abs cwd base in let l := abs cwd p in let i := common s l in
         Ok (repeat dotdot (length s - i) ++ skipn i l)
  end.
(** [path_is_inside], utils.py l.2440-2447 *)
Definition path_is_inside (cwd p base : name) : bool :=
  match relpath cwd p base with
  | Ok (x :: _) => negb (zeqb_list x dotdot)
  | Ok [] => true
  | Err _ => false
  end.

(* ------------------------------------------------------------------ *)
(** * The file system *)
Definition fs := list (list name * entry).
Fixpoint same_path (a b : list name) : bool :=
  match a, b with [], [] => true | x :: a, y :: b => zeqb_list x y && same_path a b | _, _ => false end.
Fixpoint look (f : fs) (p : list name) : option entry :=
  match f with [] => None | (q, e) :: f => if same_path p q then Some e else look f p end.
Fixpoint under (base p : list name) : bool :=
  match base, p with [], _ => true | x :: base, y :: p => zeqb_list x y && under base p | _, [] => false end.
Definition put (f : fs) (p : list name) (e : entry) : fs := (p, e) :: filter (fun x => negb (same_path p (fst x))) f.
(** [os.path.isdir], [os.path.exists] *)
Definition is_dir (f : fs) (p : list name) : bool :=
  match p with [] => true | _ => match look f p with Some None => true | _ => false end end.
Definition exists_ (f : fs) (p : list name) : bool :=
  match p with [] => true | _ => match look f p with Some _ => true | None => false end end.
(** [os.makedirs], behind [here]; [true]: done, or [FileExistsError], which [dir_ensure_exists] (l.2463-2468) passes over *)
Fixpoint makedirs (f : fs) (here rest : list name) : fs * bool :=
  match rest with
  | [] => (f, true)
  | n :: rest =>
      let p := here ++ [n] in
      match look f p with
      | Some None => makedirs f p rest
      | Some (Some _) => (f, match rest with [] => true | _ => false end)
      | None => makedirs (put f p None) p rest
      end
  end.
(** [shutil.rmtree]: of a directory that is there *)
Definition rmtree (f : fs) (p : list name) : fs * bool :=
  if is_dir f p then (filter (fun x => negb (under p (fst x))) f, true) else (f, false).
(** [open(path, "wb")] and [write] *)
Definition file_write (f : fs) (p : list name) (d : list Z) : fs * bool :=
  if negb (is_dir f p) && is_dir f (removelast p) then (put f p (Some d), true) else (f, false).
Definition file_read (f : fs) (p : list name) : res (list Z) :=
  match p, look f p with _ :: _, Some (Some d) => Ok d | _, _ => Err EValue end.
(** [os.listdir], in the order of the list *)
Definition child_of (p q : list name) : list name :=
  match q with [] => [] | _ => if same_path (removelast q) p then [last q []] else [] end.
Definition listdir (f : fs) (p : list name) : list name := flat_map (fun x => child_of p (fst x)) f.

(* ------------------------------------------------------------------ *)
(** * Writing *)
Definition starts_with (pre s : name) : bool := zeqb_list pre (firstn (length pre) s).
Definition slashes (s : name) : nat := length (filter (fun c => c =? 47) s).
Definition with_slash (s : name) : name := match s with [] => [] | _ => if ends_slash s then s else s ++ [47] end.

Section Fs.
Context (cwd : name).

(** [dir_create], utils.py l.2470-2474 *)
Definition dir_create (f : fs) (p : name) (delete_existing : bool) : fs * bool :=
  let '(f, ok) := if delete_existing && match p with [] => false | _ => exists_ f (abs cwd p) end then rmtree f (abs cwd p) else (f, true) in
  if ok then match p with [] => (f, false) | _ => makedirs f [] (abs cwd p) end else (f, false).

(** [os.path.isdir], [open] on a path as given: "" is nothing *)
Definition path_is_dir (f : fs) (p : name) : bool := match p with [] => false | _ => is_dir f (abs cwd p) end.
Definition write_at (f : fs) (p : name) (d : list Z) : fs * bool := match p with [] => (f, false) | _ => file_write f (abs cwd p) d end.
Definition read_at (f : fs) (p : name) : res (list Z) := match p with [] => Err EValue | _ => file_read f (abs cwd p) end.

(** one child of the loop, l.590-596; [go] is the recursive call *)
Section Step.
Context (go : fs -> name -> bool -> name -> fs * res unit) (p fspath : name).
Definition write_child (f : fs) (x : path * entry) : fs * res unit :=
  let (cfs, e) := x in
  if starts_with fspath cfs then
    let child := skipn (length fspath) cfs in
    if Nat.eqb (slashes child) (match e with None => 1 | Some _ => 0 end) then
      let cp := path_join p child in
      if path_is_inside cwd cp p then go f cp (match e with None => true | Some _ => false end) cfs else (f, Err ECheck)
    else (f, Ok tt)
  else (f, Ok tt).
Fixpoint write_children (f : fs) (l : list (path * entry)) : fs * res unit :=
  match l with
  | [] => (f, Ok tt)
  | x :: l => match write_child f x with (f, Ok _) => write_children f l | (f, Err e) => (f, Err e) end
  end.
End Step.

(** [write_cart64_to_fs], l.585-602: what happens to the file system, also if there is an error.  [del]: only of the call from outside,
    as [delete_existing] is not passed on. *)
Fixpoint write_fs (fuel : nat) (cart : list (path * entry)) (del : bool) (f : fs) (p : name) (dir : bool) (fspath : name) : fs * res unit :=
  match fuel with
  | O => (f, Err EFuel)
  | S fuel =>
      if dir then
        match dir_create f p del with
        | (f, true) => write_children (write_fs fuel cart false) p (with_slash fspath) f cart
        | (f, false) => (f, Err EValue)
        end
      else
        let p := if path_is_dir f p then path_join p (path_basename fspath) else p in
        match get cart fspath with
        | Some (Some d) => match write_at f p d with (f, true) => (f, Ok tt) | (f, false) => (f, Err EValue) end
        | Some None => (fst (write_at f p []), Err EType)  (* the file is there before its data, which are None, are written *)
        | None => (f, Err ECheck)
        end
  end.
(** the call from outside, l.577-583 *)
Definition write_cart64_to_fs (cart : list (path * entry)) (f : fs) (p : name) (dir : option bool) (fspath : name) (del : bool) : fs * res unit :=
  let d := match dir with Some d => d | None => match get cart fspath with Some None => true | _ => false end end in
  write_fs (S (S (fold_right (fun x n => Nat.max (length (fst x)) n) 0%nat cart))) cart del f p d fspath.

(* ------------------------------------------------------------------ *)
(** * Reading *)
(** [order]: that of [os.listdir]; [matches]: [not sections or sections.matches] (C43) *)
Context (order : list name -> list name) (matches : name -> bool).
Definition read_child (go : name -> name -> list (path * entry) -> res (list (path * entry))) (p fspath : name) :
    list name -> list (path * entry) -> res (list (path * entry)) :=
  fix loop cs cart := match cs with [] => Ok cart | c :: cs => cart <- go (path_join p c) (fspath ++ c) cart ;; loop cs cart end.
(** [read_cart64_from_fs], l.547-575 *)
Fixpoint read_fs (fuel : nat) (f : fs) (dir : option bool) (p fspath : name) (cart : list (path * entry)) : res (list (path * entry)) :=
  match fuel with
  | O => Err EFuel
  | S fuel =>
      let fspath := if zeqb_list fspath dot || zeqb_list fspath [47] then [] else fspath in
      if match dir with Some d => d | None => path_is_dir f p end then
        let fspath := with_slash fspath in
        let cart := match fspath with [] => cart | _ => set cart fspath None end in
        if path_is_dir f p then read_child (fun p fspath cart => read_fs fuel f None p fspath cart) p fspath (order (listdir f (abs cwd p))) cart
        else Err EValue
      else
        let fspath := if match fspath with [] => true | _ => ends_slash fspath end then fspath ++ path_basename p else fspath in
        if matches fspath then
          if ends_slash fspath then Err ECheck
          else d <- read_at f p ;; Ok (set cart fspath (Some d))
        else Ok cart
  end.
Definition read_cart64_from_fs (f : fs) (p : name) (dir : option bool) (fspath : name) : res (list (path * entry)) :=
  read_fs (S (fold_right (fun x n => Nat.max (length (fst x)) n) 0%nat f)) f dir p fspath [].
End Fs.
