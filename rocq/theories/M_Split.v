(** Model of the sublanguage of split strings: /repo/scripts/split.py.  Characters are code
    points. *)
From Coq Require Import String List.
From Verif Require Import M_Base M_Compress M_Fold M_Num M_Token M_Str M_Text M_Expr.
Import ListNotations.
Open Scope Z_scope.

(** [VarKind.member] and [VarKind.global_]; strings are [None], l.53-58 *)
Inductive kind := KMember | KGlobal.
Definition kind_eqb (a b : kind) : bool := match a, b with KMember, KMember | KGlobal, KGlobal => true | _, _ => false end.

(** A part of a template: a kind or a template, l.98: the separator, the types of the parts,
    and the range of those in the plural. *)
Inductive ty :=
| TPlain (k : option kind)
| TSplit (sep : list Z) (types : list ty) (plural : option (nat * nat)).

(* ------------------------------------------------------------------ *)
(** * The arguments *)

Section Args.
(** [str.isalpha] *)
Context (isalpha : Z -> bool) (lang : language).

(** l.45-47 *)
Fixpoint take_alpha (s : list Z) : list Z * list Z :=
  match s with
  | c :: t => if isalpha c then let '(a, b) := take_alpha t in (c :: a, b) else ([], s)
  | [] => ([], [])
  end.
Definition is_split (t : ty) : bool := match t with TSplit _ _ _ => true | TPlain _ => false end.
(** l.55-66: the kind of a word *)
Definition add_word (singular : list Z) (split : list ty) : res (list ty) :=
  if zeqb_list singular (asc "member"%string) then Ok (split ++ [TPlain (Some KMember)])
  else if zeqb_list singular (asc "global"%string) then Ok (split ++ [TPlain (Some KGlobal)])
  else if zeqb_list singular (asc "string"%string) || zeqb_list singular (asc "preserve"%string) then Ok (split ++ [TPlain None])
  else match singular with
       | [] => match rev split with t :: _ => if is_split t then Ok split else Err ECheck | [] => Err ECheck end
       | _ => Err ECheck
       end.
(** l.68-75 *)
Definition add_plural (split : list ty) (plural : option (nat * nat)) : res (option (nat * nat)) :=
  let i := (length split - 1)%nat in
  match plural with
  | None => Ok (Some (i, S i))
  | Some (b, e) => if (e =? i)%nat then Ok (Some (b, S e)) else Err ECheck
  end.
(** l.81-89: the characters of a separator, from behind its first character [ch] *)
Definition separator (ch : Z) (s : list Z) : res (list Z * list Z) :=
  if ch =? 92 then
    match s with
    | [] => Ok ([], [])                                    (* the empty string is in "()" *)
    | 40 :: t => Ok ([40], t)
    | 41 :: t => Ok ([41], t)
    | 119 :: t => match t with [] => Ok ([], []) | c :: t => Ok ([c], t) end
    | _ => parse_char_escape lang s
    end
  else Ok ([ch], s).
(** [parse_rec], l.24-98; only whether [depth] is zero matters.  The position is what is left
    of the arguments; a character 0 counts as their end.  Each round takes a character. *)
Fixpoint parse_rec (fuel : nat) (deep : bool) (s : list Z)
    (split : list ty) (sep : option (list Z)) (sep_expected : bool) (plural : option (nat * nat)) : res (ty * list Z) :=
  let finish s := match sep with None => Err ECheck | Some sep => Ok (TSplit sep split plural, s) end in
  match fuel with
  | O => Err EFuel
  | S fuel =>
      match s with
      | [] => if deep then Err ECheck else finish []
      | ch :: s =>
          if ch =? 0 then (if deep then Err ECheck else finish s)
          else if ch =? 41 then (if deep then finish s else Err ECheck)
          else if ch =? 40 then
            if sep_expected then Err ECheck else
            '(t, s) <- parse_rec fuel true s [] None false None ;;
            parse_rec fuel deep s (split ++ [t]) sep true plural
          else if isalpha ch then
            let '(w, s) := take_alpha s in
            let word := ch :: w in
            let is_plural := ends_with [115] word in
            let singular := if is_plural then removelast word else word in
            split <- add_word singular split ;;
            plural <- (if is_plural then add_plural split plural else Ok plural) ;;
            if sep_expected && negb (zeqb_list singular []) then Err ECheck else
            parse_rec fuel deep s split sep true plural
          else
            '(ch, s) <- separator ch s ;;
            sep <- match sep with
                   | None => Ok ch
                   | Some sep => if zeqb_list sep ch then Ok sep else Err ECheck
                   end ;;
            if negb sep_expected then Err ECheck else
            parse_rec fuel deep s split (Some sep) false plural
      end
  end.
(** [parse_split_args], l.7-100 *)
Definition parse_split_args (args : list Z) : res ty :=
  '(t, _) <- parse_rec (S (length args)) false args [] None false None ;; Ok t.
End Args.

(* ------------------------------------------------------------------ *)
(** * Strings *)

(** what [parse] makes of a string: a text, or a triple with the parts and their types *)
Inductive part :=
| PText (s : list Z)
| PData (sep : list Z) (parts : list part) (types : list ty).

(** [str.split(sep)]; each part but the last is followed by a separator *)
Fixpoint split_loop (fuel : nat) (sep s : list Z) : res (list (list Z)) :=
  match fuel with
  | O => Err EFuel
  | S fuel =>
      match find_sub sep s with
      | None => Ok [s]
      | Some (a, r) => rest <- split_loop fuel sep r ;; Ok (a :: rest)
      end
  end.
Definition py_split (sep s : list Z) : res (list (list Z)) :=
  match sep with [] => Err EValue | _ => split_loop (S (length s)) sep s end.

(** [repeat_partial], l.116-124, the loop, from [slice_i] on *)
Fixpoint repeat_partial {A} (slice : list A) (count slice_i : nat) : list A :=
  match count with
  | O => []
  | S count =>
      match nth_error slice slice_i with
      | None => []                                         (* IndexError: [slice] is never empty *)
      | Some x => x :: repeat_partial slice count (if (S slice_i =? length slice)%nat then 0%nat else S slice_i)
      end
  end.
(** [get_types_of_len], l.126-142, for any kind of types; [none] is [None].  That [types +=]
    also changes the list in the template is the subject of [padded] in S_Split. *)
Definition get_types_of_len {A} (none : A) (n : nat) (types : list A) (plural : option (nat * nat)) : list A :=
  if (n =? length types)%nat then types else
  let types := match plural with
               | None => if (length types <? n)%nat then types ++ repeat none (n - length types) else types
               | Some (b, e) =>
                   let repeat_len := (Z.of_nat n - zlen types + Z.of_nat e - Z.of_nat b) in
                   firstn b types ++ repeat_partial (firstn (e - b) (skipn b types)) (Z.to_nat repeat_len) 0 ++ skipn e types
               end in
  if (n <? length types)%nat then firstn n types else types.

(** [parts[i] = m.parse(parts[i], type)] for all [i], l.151-153 *)
Fixpoint parse_parts (parts : list (list Z)) (types : list (ty * (list Z -> res part))) : res (list part) :=
  match parts, types with
  | p :: parts, (_, f) :: types => x <- f p ;; rest <- parse_parts parts types ;; Ok (x :: rest)
  | parts, _ => Ok (map PText parts)
  end.
(** [parse], l.144-155: what becomes of a part of a type *)
Fixpoint parse_ty (t : ty) : list Z -> res part :=
  match t with
  | TPlain _ => fun s => Ok (PText s)
  | TSplit sep types plural =>
      let types := map (fun t => (t, parse_ty t)) types in
      fun s =>
        parts <- py_split sep s ;;
        let types := get_types_of_len (TPlain None, fun s => Ok (PText s)) (length parts) types plural in
        parts <- parse_parts parts types ;;
        Ok (PData sep parts (map fst types))
  end.

(** [collect_usages_of], l.157-163: the names counted, in order, of a part of a type *)
Definition kind_is (k : kind) (t : ty) : bool := match t with TPlain (Some k') => kind_eqb k' k | _ => false end.
Section Zip.
Context {B : Type} (f : ty -> part -> B).
Fixpoint zip_with (types : list ty) (parts : list part) {struct parts} : list B :=
  match types, parts with
  | t :: types, p :: parts => f t p :: zip_with types parts
  | _, _ => []
  end.
End Zip.
Fixpoint usages_of (k : kind) (t : ty) (p : part) {struct p} : list (list Z) :=
  match p with
  | PText s => if kind_is k t then [s] else []
  | PData _ parts types => if is_split t then concat (zip_with (usages_of k) types parts) else []
  end.
(** [rename_of], l.176-184; parts without a type stay *)
Definition dict_get (d : list Z -> option (list Z)) (s : list Z) : list Z := match d s with Some v => v | None => s end.
Section Rename.
Context (globals members : list Z -> option (list Z)).
Fixpoint rename_of (t : ty) (p : part) {struct p} : part :=
  match p with
  | PText s =>
      match t with
      | TPlain (Some KGlobal) => PText (dict_get globals s)
      | TPlain (Some KMember) => PText (dict_get members s)
      | _ => p
      end
  | PData sep parts types =>
      if is_split t then PData sep (zip_with rename_of types parts ++ skipn (length types) parts) types else p
  end.
End Rename.
(** [format], l.189-191 *)
Fixpoint join (sep : list Z) (l : list (list Z)) : list Z :=
  match l with [] => [] | [x] => x | x :: l => x ++ sep ++ join sep l end.
Fixpoint format (p : part) : list Z :=
  match p with PText s => s | PData sep parts _ => join sep (map format parts) end.
