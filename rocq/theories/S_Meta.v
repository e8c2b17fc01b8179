(** Vocabulary for the metadata of the files of a cart. *)
From Coq Require Import String List ZArith.
From Verif Require Import M_Base M_Expr M_Pod S_Pod S_Files.
Import ListNotations.
Open Scope Z_scope.

(** The last part of a path is [name]. *)
Definition called (p name : list Z) : Prop := ~ In 47 name /\ (p = name \/ exists d, p = d ++ [47] ++ name).
(** A table of metadata: its keys are strings, its values can be stored. *)
Definition meta_table (t : entries) : Prop :=
  storable_entries same_bytes t /\ all_entries from_bytes (fun _ => True) t /\ Forall (fun k => exists s, k = VStr s) (keys t).
(** The header says first whether the file is raw, as those that this program and Picotron write. *)
Definition regular (data : list Z) (t : entries) : Prop :=
  file_is_raw data = true <-> In (VStr (asc "pod_format"), VStr (asc "raw")) (to_list t).
(** The entries whose key has the property [Q]. *)
Definition entries_of (Q : list Z -> Prop) (t t' : entries) : Prop :=
  NoDup (to_list t') /\ forall k v, In (k, v) (to_list t') <-> In (k, v) (to_list t) /\ exists s, k = VStr s /\ Q s.

Section Reduced.
(** The keys to keep. *)
Context (Q : list Z -> Prop).
Definition none_kept (m : option pod) : Prop := forall t s v, m = Some (VTable t) -> In (VStr s, v) (to_list t) -> ~ Q s.
(** What is left of the metadata [m] of a file: if any key is to be kept, the entries of those keys and what tells the format; else none, or nothing
    but the mark of a pod in files that are pods. *)
Inductive reduced (raw : bool) (m : option pod) : option pod -> Prop :=
| no_metadata : m = None -> reduced raw m None
| all_dropped t : m = Some (VTable t) -> none_kept m -> raw = true -> reduced raw m None
| all_emptied t : m = Some (VTable t) -> none_kept m -> raw = false -> reduced raw m (Some (VTable ENil))
| some_kept t t' : m = Some (VTable t) -> ~ none_kept m ->
    entries_of (fun s => Q s \/ s = asc "pod_format" \/ s = asc "pod_type") t t' -> reduced raw m (Some (VTable t')).
End Reduced.
(** Files without a header, or with one that is a table; a raw file's contents do not look like a header themselves. *)
Definition meta_file_ok (metadata : list Z -> res (option pod)) (data : list Z) : Prop :=
  headless data \/ exists t, metadata data = Ok (Some (VTable t)) /\ meta_table t /\ regular data t /\ (file_is_raw data = true -> headless (raw_payload data)).
