(** C49: strings of the split sublanguage. *)
From Coq Require Import String List Arith.
From Verif Require Import M_Base L_Util M_Fold M_Expr M_Split S_Split L_Split L_Split2 L_Split3 L_Split4.
Import ListNotations.
Open Scope Z_scope.

(** The arguments are either refused or give a template, whatever they are; it makes sense if
    no separator of it is empty. *)
Theorem C49_args : forall isalpha lang args,
  parse_split_args isalpha lang args <> Err EFuel /\
  forall t, parse_split_args isalpha lang args = Ok t -> ~ In [] (separators t) -> sound_ty t /\ forall k, t <> TPlain k.
Proof.
  intros isalpha lang args. unfold parse_split_args. destruct (rec_ends isalpha lang (S (length args)) false args [] None false None ltac:(lia)) as (N & _).
  destruct (parse_rec isalpha lang (S (length args)) false args [] None false None) as [(t, r)|e] eqn:E; cbn [bind].
  - split; [discriminate|]. intros t' Q Ns. apply Ok_inj in Q. subst t'. destruct (rec_ok _ _ _ _ _ _ _ _ _ _ _ E (Forall_nil _) I) as (O & S').
    split; [now apply ok_sound|]. intros k ->. discriminate S'.
  - split; [congruence|]. intros; discriminate.
Qed.

(** A template that is spelled in the arguments is the one that is read from them. *)
Theorem C49_spelled : forall isalpha lang t args,
  (forall c, 97 <= c <= 122 -> isalpha c = true) -> isalpha 0 = false -> isalpha 40 = false -> isalpha 41 = false -> isalpha 92 = false ->
  spelled isalpha t args -> parse_split_args isalpha lang args = Ok t.
Proof. intros isalpha lang t args L A B C D H. now apply spelled_read. Qed.

(** Every string is read as the template says, in one way, and printed as it was. *)
Theorem C49_parse : forall t s, sound_ty t ->
  exists p tr, parse_ty t s = Ok p /\ format p = s /\ reads t s tr /\ forall tr', reads t s tr' -> tr' = tr.
Proof.
  intros t s So. destruct (parse_ok t So s) as (p & E & W & F & R). exists p, (tree_of t p). split; [exact E|]. split; [exact F|]. split; [exact R|].
  intros tr' R'. eapply reads_unique; eauto.
Qed.

(** The names counted are those of the kind, and renaming them changes these and nothing
    else. *)
Theorem C49_rename : forall t s p tr globals members, sound_ty t -> parse_ty t s = Ok p -> reads t s tr ->
  usages_of KGlobal t p = names KGlobal tr /\ usages_of KMember t p = names KMember tr /\
  format (rename_of globals members t p) = text (renamed (dict_get globals) (dict_get members) tr).
Proof.
  intros t s p tr globals members So E R. destruct (parse_ok t So s) as (p' & E' & W & F & R'). rewrite E in E'. apply Ok_inj in E'. subst p'.
  rewrite (reads_unique _ _ _ _ R R'). split; [now apply usages_tree|]. split; [now apply usages_tree|].
  destruct (rename_tree globals members t p W) as (W' & T). now rewrite (format_tree t) , T.
Qed.
(** If the new names are not empty and have no character of a separator, what is printed is
    read as the same parts with the new names. *)
Theorem C49_structure : forall t s tr globals members, reads t s tr ->
  (forall x, In x (names KGlobal tr) -> globals x <> x -> x <> [] /\ globals x <> [] /\ forall sep c, In sep (separators t) -> In c (globals x) -> ~ In c sep) ->
  (forall x, In x (names KMember tr) -> members x <> x -> x <> [] /\ members x <> [] /\ forall sep c, In sep (separators t) -> In c (members x) -> ~ In c sep) ->
  reads t (text (renamed globals members tr)) (renamed globals members tr).
Proof.
  intros t s tr globals members R G M. apply (reads_renamed _ _ (separators t) tr t s R (incl_refl _)).
  - apply Forall_forall. intros x I. destruct (list_eq_dec Z.eq_dec (globals x) x) as [E|N]; [now left|right]. destruct (G x I N) as (A & B & C).
    split; [exact A|]. split; [exact B|]. apply Forall_forall. intros sep Is. apply Forall_forall. intros c Ic. now apply (C sep).
  - apply Forall_forall. intros x I. destruct (list_eq_dec Z.eq_dec (members x) x) as [E|N]; [now left|right]. destruct (M x I N) as (A & B & C).
    split; [exact A|]. split; [exact B|]. apply Forall_forall. intros sep Is. apply Forall_forall. intros c Ic. now apply (C sep).
Qed.

(** Templates are kept for later strings with the same arguments, and parsing may add to their
    lists of types.  This does not matter. *)
Theorem C49_cache : forall t t' s, sound_ty t -> padded t t' ->
  exists p p', parse_ty t s = Ok p /\ parse_ty t' s = Ok p' /\
    (forall k, usages_of k t' p' = usages_of k t p) /\
    forall globals members, format (rename_of globals members t' p') = format (rename_of globals members t p).
Proof.
  intros t t' s So P. pose proof (padded_sound _ _ P So) as So'. destruct (parse_ok t So s) as (p & E & W & F & R). destruct (parse_ok t' So' s) as (p' & E' & W' & F' & R').
  exists p, p'. split; [exact E|]. split; [exact E'|]. pose proof (reads_padded _ _ _ _ _ So P R R') as T. split.
  - intros k. now rewrite (usages_tree k t _ W), (usages_tree k t' _ W'), T.
  - intros g m. destruct (rename_tree g m t p W) as (W1 & T1), (rename_tree g m t' p' W') as (W2 & T2). now rewrite (format_tree t _ W1), (format_tree t' _ W2), T1, T2, T.
Qed.

(** a case: the arguments "(member,strings);global", and a string with two separators *)
Definition ascii_alpha (c : Z) : bool := ((65 <=? c) && (c <=? 90)) || ((97 <=? c) && (c <=? 122)).
Definition a_template : ty := TSplit [59] [TSplit [44] [TPlain (Some KMember); TPlain None] (Some (1, 2)%nat); TPlain (Some KGlobal)] None.
Example C49_case : parse_split_args ascii_alpha Pico8 (asc "(member,strings);global"%string) = Ok a_template /\ sound_ty a_template /\
  reads a_template (asc "a,b,c;d;e"%string) (Node [59] [Node [44] [Leaf (Some KMember) [97]; Leaf None [98]; Leaf None [99]]; Leaf (Some KGlobal) [100]; Leaf None [101]]) /\
  exists p, parse_ty a_template (asc "a,b,c;d;e"%string) = Ok p /\
    format (rename_of (fun x => if zeqb_list x [100] then Some [120] else None) (fun x => if zeqb_list x [97] then Some [121] else None) a_template p) = asc "y,b,c;x;e"%string.
Proof.
  assert (So : sound_ty a_template).
  { repeat constructor; discriminate. }
  split; [reflexivity|]. split; [exact So|]. split; [|eexists; split; [vm_compute; reflexivity|vm_compute; reflexivity]].
  destruct (parse_ok a_template So (asc "a,b,c;d;e"%string)) as (p & E & _ & _ & R). vm_compute in E. apply Ok_inj in E. subst p. exact R.
Qed.
Example C49_spelled_case : spelled ascii_alpha a_template (asc "(member,strings);global"%string) /\
  spelled ascii_alpha (TSplit [41] [TSplit [97] [TPlain None; TPlain (Some KMember)] (Some (1, 2)%nat); TPlain None] (Some (0, 2)%nat)) (asc "(string\wamembers)s\)preserves"%string).
Proof.
  split.
  - change (asc "(member,strings);global") with (((40 :: (asc "member" ++ [44] ++ asc "strings") ++ [41] ++ []) ++ [59] ++ asc "global") ++ []).
    apply (spelled_split ascii_alpha [59] [(TSplit [44] [TPlain (Some KMember); TPlain None] (Some (1, 2)%nat), false); (TPlain (Some KGlobal), false)] None); [|repeat constructor|left; split; [reflexivity|cbn; lia]].
    apply items_more; [|apply sep_plain; [reflexivity|cbn; lia]|apply items_one; apply (item_plain ascii_alpha _ false (asc "global")); constructor].
    apply (item_nested ascii_alpha _ false). rewrite <- (app_nil_r (_ ++ _)).
    apply (spelled_split ascii_alpha [44] [(TPlain (Some KMember), false); (TPlain None, true)]); [|exists [(TPlain (Some KMember), false)], [(TPlain None, true)], []; repeat constructor; discriminate|left; split; [reflexivity|cbn; lia]].
    apply items_more; [apply (item_plain ascii_alpha _ false (asc "member")); constructor|apply sep_plain; [reflexivity|cbn; lia]|apply items_one; apply (item_plain ascii_alpha _ true (asc "string")); constructor].
  - change (asc "(string\wamembers)s\)preserves") with (((40 :: (asc "string" ++ [92; 119; 97] ++ asc "members") ++ [41] ++ [115]) ++ [92; 41] ++ asc "preserves") ++ []).
    apply (spelled_split ascii_alpha [41] [(TSplit [97] [TPlain None; TPlain (Some KMember)] (Some (1, 2)%nat), true); (TPlain None, true)]); [|exists [], [(TSplit [97] [TPlain None; TPlain (Some KMember)] (Some (1, 2)%nat), true); (TPlain None, true)], []; repeat constructor; discriminate|left; split; [reflexivity|cbn; lia]].
    apply items_more; [|apply sep_paren; now right|apply items_one; apply (item_plain ascii_alpha _ true (asc "preserve")); constructor].
    apply (item_nested ascii_alpha _ true). rewrite <- (app_nil_r (_ ++ _)).
    apply (spelled_split ascii_alpha [97] [(TPlain None, false); (TPlain (Some KMember), true)]); [|exists [(TPlain None, false)], [(TPlain (Some KMember), true)], []; repeat constructor; discriminate|left; split; [reflexivity|cbn; lia]].
    apply items_more; [apply (item_plain ascii_alpha _ false (asc "string")); constructor|apply sep_any|apply items_one; apply (item_plain ascii_alpha _ true (asc "member")); constructor].
Qed.
(** padding as it happens: the string above makes the outer list longer *)
Example C49_padded : padded a_template (TSplit [59] ([TSplit [44] ([TPlain (Some KMember); TPlain None] ++ repeat (TPlain None) 0) (Some (1, 2)%nat); TPlain (Some KGlobal)] ++ repeat (TPlain None) 1) None).
Proof. repeat (constructor; try easy). Qed.

(** A backslash at the end of the arguments is taken for an empty separator, and then every
    string is a ValueError. *)
Theorem C49_separator_refuted : exists t, parse_split_args ascii_alpha Pico8 (asc "member\"%string) = Ok t /\ forall s, parse_ty t s = Err EValue.
Proof. eexists. split; [vm_compute; reflexivity|]. reflexivity. Qed.
(** If a new name has the separator in it, as a name may have an underscore, the string has
    another structure afterwards. *)
Theorem C49_names_refuted : exists t s tr members, sound_ty t /\ reads t s tr /\ names KMember tr = [[97]; [98]] /\
  ~ reads t (text (renamed (fun x => x) members tr)) (renamed (fun x => x) members tr).
Proof.
  set (t := TSplit [95] [TPlain (Some KMember); TPlain (Some KMember)] None). set (members := fun x : list Z => if zeqb_list x [97] then [99; 95] else x).
  assert (So : sound_ty t) by (repeat constructor; discriminate). exists t, [97; 95; 98].
  destruct (parse_ok t So [97; 95; 98]) as (p & E & _ & _ & R). vm_compute in E. apply Ok_inj in E. subst p.
  exists (Node [95] [Leaf (Some KMember) [97]; Leaf (Some KMember) [98]]), members. split; [exact So|]. split; [exact R|]. split; [reflexivity|].
  intros R'. destruct (parse_ok t So [99; 95; 95; 98]) as (p & E & _ & _ & R2). vm_compute in E. apply Ok_inj in E. subst p.
  change (reads t [99; 95; 95; 98] (renamed (fun x => x) members (Node [95] [Leaf (Some KMember) [97]; Leaf (Some KMember) [98]]))) in R'.
  pose proof (reads_unique _ _ _ _ R' R2) as Q. discriminate Q.
Qed.

Print Assumptions C49_args.
Print Assumptions C49_spelled.
Print Assumptions C49_parse.
Print Assumptions C49_rename.
Print Assumptions C49_structure.
Print Assumptions C49_cache.
Print Assumptions C49_separator_refuted.
Print Assumptions C49_names_refuted.
