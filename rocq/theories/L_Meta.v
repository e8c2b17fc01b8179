(** Lemmas about the metadata of the files of a cart. *)
From Coq Require Import String List ZArith Lia Bool Permutation.
From Verif Require Import M_Base L_Util M_Token M_Expr M_Pod M_Files M_Meta S_Num S_Expr S_Pod S_Files S_Meta L_Files L_Luastr L_PodText L_PodMeta P_Pod P_Files.
Import ListNotations.
Open Scope Z_scope.

Lemma take_spec s : ~ In 47 (take_to_slash s) /\ (s = take_to_slash s \/ exists d, s = take_to_slash s ++ 47 :: d).
Proof.
  induction s as [|c s (N & IH)]; [split; [easy|now left]|]. cbn [take_to_slash]. destruct (Z.eqb_spec c 47) as [->|Nc].
  - split; [easy|]. right. now exists s.
  - split; [intros [H|H]; [lia|contradiction]|]. destruct IH as [IH|(d & IH)]; [left; congruence|right; exists d; cbn [app]; congruence].
Qed.
Lemma take_app a d : ~ In 47 a -> take_to_slash (a ++ 47 :: d) = a /\ take_to_slash a = a.
Proof.
  induction a as [|c a IH]; intros N; [easy|]. cbn [take_to_slash app]. destruct (Z.eqb_spec c 47) as [->|Nc]; [destruct N; now left|].
  destruct IH as (-> & ->); [intros H; apply N; now right|easy].
Qed.
Lemma called_iff p name : ~ In 47 name -> (zeqb_list (after_last_slash p) name = true <-> called p name).
Proof.
  intros N. rewrite zeqb_list_true. unfold after_last_slash, called. split.
  - intros <-. split; [exact N|]. destruct (take_spec (rev p)) as (_ & [E|(d & E)]).
    + left. rewrite <- E. now rewrite rev_involutive.
    + set (a := take_to_slash (rev p)) in *. clearbody a. right. exists (rev d). rewrite <- (rev_involutive p). rewrite E, rev_app_distr. cbn [rev]. now rewrite <- app_assoc.
  - assert (N' : ~ In 47 (rev name)) by (now rewrite <- in_rev). intros (_ & [->|(d & ->)]).
    + destruct (take_app (rev name) [] N') as (_ & ->). apply rev_involutive.
    + rewrite !rev_app_distr. cbn [rev app]. rewrite <- app_assoc. cbn [app]. destruct (take_app (rev name) (rev d) N') as (-> & _). apply rev_involutive.
Qed.

(** Entries as a list. *)
Lemma get_entry t s v : dict_get t (VStr s) = Some v -> In (VStr s, v) (to_list t).
Proof.
  induction t as [|k w t IH]; [discriminate|]. cbn [dict_get to_list]. destruct (key_eqb k (VStr s)) eqn:E; [|intros H; right; auto]. apply key_str in E. subst k. intros [= ->]. now left.
Qed.
Lemma get_no_entry t s : dict_get t (VStr s) = None -> ~ In (VStr s) (keys t).
Proof.
  induction t as [|k w t IH]; [easy|]. cbn [dict_get keys]. destruct (key_eqb k (VStr s)) eqn:E; [discriminate|]. intros H [->|I]; [|now apply IH].
  unfold key_eqb in E. cbn in E. rewrite zeqb_list_refl in E. discriminate E.
Qed.
Lemma set_entries t k v : (In (VStr k, v) (to_list t) /\ NoDup (map fst (to_list t)) -> to_list (dict_set t (VStr k) v) = to_list t) /\
  (~ In (VStr k) (keys t) -> to_list (dict_set t (VStr k) v) = to_list t ++ [(VStr k, v)]).
Proof.
  induction t as [|q w t (IH1 & IH2)]; [split; [intros ([] & _)|reflexivity]|]. cbn [dict_set to_list keys map fst]. destruct (key_eqb q (VStr k)) eqn:E.
  - apply key_str in E. subst q. split; [|intros N; destruct N; now left]. intros ([[= ->]|I] & N); [reflexivity|]. inversion N; subst. exfalso. now apply (in_map fst) in I.
  - split.
    + intros ([[= -> ->]|I] & N); [exfalso; unfold key_eqb in E; cbn in E; rewrite zeqb_list_refl in E; discriminate E|]. cbn [to_list]. inversion N; subst. now rewrite IH1.
    + intros N. cbn [to_list app]. rewrite IH2; [reflexivity|]. intros H. apply N. now right.
Qed.
Lemma clash_sym k k' : clash same_bytes k k' -> clash same_bytes k' k.
Proof. destruct k, k'; cbn; auto; unfold same_user, same_bytes; intuition congruence. Qed.
Lemma storable_apart l : storable_list same_bytes l -> forall x y, In x l -> In y l -> x = y \/ ~ clash same_bytes (fst x) (fst y).
Proof.
  induction l as [|(k, v) l IH]; [intros _ x y []|]. intros (_ & _ & _ & _ & F & S) x y. rewrite Forall_forall in F.
  intros [<-|Ix] [<-|Iy]; [now left| | |now apply IH]; right; cbn [fst].
  - apply F. now apply in_map.
  - intros C. apply clash_sym in C. revert C. apply F. now apply in_map.
Qed.
Lemma clash_refl k v l : In (k, v) l -> storable_list same_bytes l -> clash same_bytes k k.
Proof.
  intros I. induction l as [|(k0, v0) l IH]; [easy|]. intros (_ & _ & _ & K & _ & S). destruct I as [[= -> ->]|I]; [|auto].
  destruct k; cbn; try easy; unfold same_user, same_bytes; auto.
Qed.
Lemma storable_incl l l' : storable_list same_bytes l -> NoDup l' -> incl l' l -> storable_list same_bytes l'.
Proof.
  intros S. pose proof (storable_apart l S) as A. assert (E : forall k v, In (k, v) l -> storable same_bytes k /\ storable same_bytes v /\ v <> VNil /\ match k with VInt _ | VStr _ | VUser _ => True | VBool b => b = false | _ => False end).
  { clear - S. induction l as [|(k0, v0) l IH]; [easy|]. destruct S as (S1 & S2 & S3 & S4 & _ & S). intros k v [[= -> ->]|I]; auto. }
  induction l' as [|(k, v) l' IH]; intros N I; [easy|]. inversion N as [|? ? N1 N2]; subst. assert (Ik : In (k, v) l) by (apply I; now left). destruct (E k v Ik) as (E1 & E2 & E3 & E4). cbn [storable_list].
  refine (conj E1 (conj E2 (conj E3 (conj E4 (conj _ (IH N2 (fun x H => I x (or_intror H)))))))). apply Forall_forall. intros k' Hk. apply in_map_iff in Hk as ((k2, v2) & <- & I2).
  destruct (A (k, v) (k2, v2) Ik (I _ (or_intror I2))) as [H|H]; [|exact H]. exfalso. apply N1. now rewrite H.
Qed.
Lemma storable_keys l : storable_list same_bytes l -> NoDup (map fst l).
Proof.
  induction l as [|(k, v) l IH]; intros S; [constructor|]. pose proof (clash_refl k v ((k, v) :: l) (or_introl eq_refl) S) as R. destruct S as (_ & _ & _ & _ & F & S). cbn [map fst]. constructor; [|now apply IH].
  intros I. rewrite Forall_forall in F. now apply (F k I).
Qed.
Lemma nodup_fst {A B} (l : list (A * B)) : NoDup (map fst l) -> NoDup l.
Proof. exact (NoDup_map_inv fst l). Qed.
Lemma entry_unique (l : list (pod * pod)) k v v' : NoDup (map fst l) -> In (k, v) l -> In (k, v') l -> v = v' :> pod.
Proof.
  induction l as [|(k0, v0) l IH]; [easy|]. cbn [map fst]. intros N. inversion N; subst. intros [[= -> ->]|I] [E|I']; [congruence| | |auto].
  - exfalso. now apply (in_map fst) in I'.
  - injection E as -> ->. exfalso. now apply (in_map fst) in I.
Qed.

Section One.
Context (matcher : path -> path -> bool) (keep : list path) (t : entries).
Context (St : storable_entries same_bytes t) (K : Forall (fun k => exists s, k = VStr s) (keys t)).
Notation Q := (fun s => glob_matches matcher keep s = true).
Lemma kept_ok : forall t', Forall (fun k => exists s, k = VStr s) (keys t') ->
  exists r, kept_entries matcher keep t' = Ok r /\ to_list r = filter (fun e => match fst e with VStr s => glob_matches matcher keep s | _ => false end) (to_list t').
Proof.
  clear. induction t' as [|k v t' IH]; intros F; [now exists ENil|]. cbn [keys] in F. inversion F as [|? ? (s & ->) F']; subst. destruct (IH F') as (r & E & L).
  cbn [kept_entries key_matches bind]. rewrite E. cbn [bind]. eexists. split; [reflexivity|]. cbn [to_list filter fst]. destruct (glob_matches matcher keep s); cbn [to_list]; now rewrite L.
Qed.
(** one required key *)
Lemma require_one new k : NoDup (map fst (to_list new)) -> incl (to_list new) (to_list t) ->
  let new' := match dict_get t (VStr k) with Some v => dict_set new (VStr k) v | None => new end in
  NoDup (map fst (to_list new')) /\ forall e, In e (to_list new') <-> In e (to_list new) \/ In e (to_list t) /\ fst e = VStr k.
Proof.
  intros N I new'. assert (Nt : NoDup (map fst (to_list t))) by (apply storable_keys, storable_to_list, St). unfold new'. destruct (dict_get t (VStr k)) as [v|] eqn:E.
  - pose proof (get_entry _ _ _ E) as Iv. destruct (set_entries new k v) as (S1 & S2). destruct (dict_get new (VStr k)) as [v1|] eqn:E1.
    + apply get_entry in E1. assert (v1 = v) by (apply (entry_unique (to_list t) (VStr k)); auto). subst v1.
      rewrite S1 by auto. split; [exact N|]. intros (k2, v2). split; [now left|]. intros [H|(H & E2)]; [exact H|]. cbn in E2. subst k2. assert (v2 = v) by (apply (entry_unique (to_list t) (VStr k)); auto). now subst.
    + apply get_no_entry in E1. rewrite S2 by exact E1. split.
      * rewrite map_app. cbn [map fst]. apply (Permutation_NoDup (Permutation_cons_append _ _)). constructor; [|exact N]. now rewrite <- keys_list.
      * intros e. rewrite in_app_iff. cbn [In]. split; [intros [H|[<-|[]]]; auto|]. intros [H|(H & E2)]; [now left|]. right. left. destruct e as (k2, v2). cbn in E2. subst k2.
        assert (v2 = v) by (apply (entry_unique (to_list t) (VStr k)); auto). now subst.
  - split; [exact N|]. intros e. split; [now left|]. intros [H|(H & E2)]; [exact H|]. exfalso. apply get_no_entry in E. apply E. rewrite keys_list, <- E2. now apply in_map.
Qed.
Lemma required new : NoDup (map fst (to_list new)) -> incl (to_list new) (to_list t) ->
  NoDup (map fst (to_list (add_required t new))) /\
  forall e, In e (to_list (add_required t new)) <-> In e (to_list new) \/ In e (to_list t) /\ (fst e = VStr (asc "pod_format") \/ fst e = VStr (asc "pod_type")).
Proof.
  intros N I. unfold add_required, k_pod_prefix_strs. cbn [map fold_left]. destruct (require_one new (asc "pod_format") N I) as (N1 & I1). cbv zeta in N1, I1.
  match type of N1 with NoDup (map fst (to_list ?x)) => set (n1 := x) in * end.
  destruct (require_one n1 (asc "pod_type") N1) as (N2 & I2). { intros e H. apply I1 in H as [H|(H & _)]; auto. }
  split; [exact N2|]. intros e. rewrite I2, I1. tauto.
Qed.
Lemma kept_spec r : kept_entries matcher keep t = Ok r ->
  (r = ENil <-> none_kept Q (Some (VTable t))) /\ NoDup (map fst (to_list r)) /\ incl (to_list r) (to_list t) /\
  entries_of (fun s => Q s \/ s = asc "pod_format" \/ s = asc "pod_type") t (add_required t r).
Proof.
  intros E. destruct (kept_ok t K) as (r' & E' & L). assert (r' = r) by congruence. subst r'. assert (Nt : NoDup (map fst (to_list t))) by (apply storable_keys, storable_to_list, St).
  assert (I : forall k v, In (k, v) (to_list r) <-> In (k, v) (to_list t) /\ exists s, k = VStr s /\ Q s).
  { intros k v. rewrite L, filter_In. cbn [fst]. split; intros (A & B); (split; [exact A|]); [destruct k; try discriminate B; eauto|destruct B as (s & -> & B); exact B]. }
  assert (Nr : NoDup (map fst (to_list r))).
  { rewrite L. clear - Nt. induction (to_list t) as [|e l IH]; [constructor|]. cbn [filter map] in *. inversion Nt; subst. destruct (match fst e with VStr s => glob_matches matcher keep s | _ => false end); [|now apply IH].
    cbn [map]. constructor; [|now apply IH]. intros H. apply in_map_iff in H as (x & Ex & Hx). apply filter_In in Hx as (Hx & _). apply H1. rewrite <- Ex. now apply in_map. }
  assert (Ir : incl (to_list r) (to_list t)) by (intros (k, v) H; now apply I in H). split; [|split; [exact Nr|split; [exact Ir|]]].
  - split.
    + intros -> t' s v [= <-] H q. destruct (proj2 (I (VStr s) v)); [split; [exact H|eauto]].
    + intros N. destruct r as [|k v r]; [reflexivity|]. exfalso. destruct (proj1 (I k v) (or_introl eq_refl)) as (H & s & -> & q). now apply (N t s v).
  - destruct (required r Nr Ir) as (N2 & I2). split; [now apply nodup_fst|]. intros k v. rewrite I2, I. cbn [fst]. rewrite Forall_forall in K. split.
    + intros [(A & s & -> & q)|(A & [-> | ->])]; (split; [exact A|]); eauto 6.
    + intros (A & s & -> & [q|[->| ->]]); eauto 6.
Qed.
End One.
