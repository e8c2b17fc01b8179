(** Model of how a Picotron cart's metadata is reduced and its pods are written anew: /repo/picotron_cart.py l.677-732 ([preproc_meta], the end of
    [preproc_cart64]).  A dict is a list of pairs in the order of insertion, its keys distinct; caches are left out (M_Pod).  What l.711-714 and l.717-721 do
    to title, icon and label is not modelled. *)
From Coq Require Import String.
From Verif Require Import M_Base M_Token M_Expr M_Pod M_Files.
Open Scope Z_scope.

Section Meta.
(** [re.compile(fnmatch.translate(pattern)).match(name)] *)
Context (matcher : path -> path -> bool) (isdigit : Z -> bool) (int16 : list Z -> option Z) (rf : list tok -> res (list tok * list tok)) (depth : nat).

(** [key_glob.matches(key)], l.690: matching anything but a string raises a TypeError *)
Definition key_matches (patterns : list path) (k : pod) : res bool :=
  match k with
  | VStr s => Ok (glob_matches matcher patterns s)
  | _ => match patterns with [] => Ok false | _ => Err EType end
  end.
(** l.688-691 *)
Fixpoint kept_entries (keep : list path) (t : entries) : res entries :=
  match t with
  | ENil => Ok ENil
  | ECons k v t => b <- key_matches keep k ;; r <- kept_entries keep t ;; Ok (if b then ECons k v r else r)
  end.
(** l.694-696 *)
Definition add_required (meta new_meta : entries) : entries :=
  fold_left (fun new req_key => match dict_get meta (VStr req_key) with Some v => dict_set new (VStr req_key) v | None => new end) k_pod_prefix_strs new_meta.
(** l.685-699 *)
Definition new_metadata (keep : list path) (data : list Z) : res (option entries) :=
  meta <- file_metadata rf depth data ;;
  match meta with
  | None => Ok None
  | Some (VTable t) =>
      new <- kept_entries keep t ;;
      Ok match new with
         | ENil => if file_is_raw data then None else Some ENil
         | _ => Some (add_required t new)
         end
  | Some _ => Err EType
  end.

(** [str_after_last(path, "/")], /repo/utils.py l.1546-1549 *)
Fixpoint take_to_slash (s : path) : path :=
  match s with
  | [] => []
  | c :: s' => if c =? 47 then [] else c :: take_to_slash s'
  end.
Definition after_last_slash (s : path) : path := rev (take_to_slash (rev s)).

(** the loop, l.682-704: the files as they are after it, and those to delete *)
Definition meta_file (keep : list path) (p : path) (data : list Z) : res (list Z * bool) :=
  new <- new_metadata keep data ;;
  if match new with None | Some ENil => true | _ => false end && zeqb_list (after_last_slash p) (asc ".info.pod") then Ok (data, true)
  else d <- set_metadata isdigit data new ;; Ok (d, false).
Definition meta_entry (sel keep : list path) (p : path) (f : option (list Z)) : res (option (list Z) * bool) :=
  match f with
  | Some data => if glob_matches matcher sel p then '(d, x) <- meta_file keep p data ;; Ok (Some d, x) else Ok (f, false)
  | None => Ok (f, false)
  end.
Fixpoint meta_loop (sel keep : list path) (fs : @files (list Z)) : res (@files (list Z) * list path) :=
  match fs with
  | [] => Ok ([], [])
  | (p, f) :: fs =>
      '(f', del) <- meta_entry sel keep p f ;;
      '(fs', to_delete) <- meta_loop sel keep fs ;;
      Ok ((p, f') :: fs', if del : bool then p :: to_delete else to_delete)
  end.
(** [preproc_meta], l.677-707 *)
Definition preproc_meta (delete_meta keep_meta_keys : list path) (fs : @files (list Z)) : res (@files (list Z)) :=
  '(fs', to_delete) <- meta_loop delete_meta keep_meta_keys fs ;;
  Ok (fold_left del to_delete fs').

(** the end of [preproc_cart64], l.723-732 *)
Definition pod_options (uncompress_pods base64_pods need_pod_compression : bool) (runtime : Z) : write_opts :=
  if uncompress_pods then mkwo false false base64_pods runtime
  else if need_pod_compression then mkwo true true base64_pods runtime
  else mkwo false true base64_pods runtime.
Fixpoint repack_pods (o : write_opts) (fs : @files (list Z)) : res (@files (list Z)) :=
  match fs with
  | [] => Ok []
  | (p, f) :: fs =>
      f' <- (match f with
             | Some data => if file_is_raw data then Ok f else v <- file_payload rf depth data ;; d <- set_payload isdigit int16 o data v ;; Ok (Some d)
             | None => Ok f
             end) ;;
      fs' <- repack_pods o fs ;; Ok ((p, f') :: fs')
  end.
End Meta.
