(** C36, C37, C38: the new identifiers, what renaming preserves, and which names
    it keeps. *)
From Verif Require Import M_Base L_Util M_Rename S_Rename L_Ident L_Scope L_Rewalk L_Rename L_RenameTop L_Rules.
From Verif Require M_Token M_Fold.
From Coq Require Import String List Sorted.
Import ListNotations.
Open Scope nat_scope.

(* ------------------------------------------------------------------ *)
(** * C36: the stream of identifiers *)

(** an alphabet: characters in some order, not only digits *)
Definition alphabet (chars : list Z) : Prop :=
  NoDup chars /\ exists c, In c chars /\ isdigit c = false.

(** what was yielded so far is never taken back *)
Theorem C36_one_stream : forall chars n m, exists l, get_idents chars (n + m) = get_idents chars n ++ l.
Proof.
  intros chars n m. unfold get_idents. rewrite seq_app, map_app, filter_app. eexists. reflexivity.
Qed.

(** each identifier comes after the ones before it: shortest first, and in the
    order of the alphabet; so they are all different *)
Theorem C36_ordered : forall chars n, alphabet chars ->
  StronglySorted (ident_before chars) (get_idents chars n).
Proof.
  intros chars n (N & X). unfold get_idents. generalize 0 as k. induction n as [|n IH]; intros k; [constructor|].
  cbn [seq map filter].
  assert (T : Forall (ident_before chars (raw_ident chars k))
    (filter (fun i => negb (mem i keywords)) (map (raw_ident chars) (seq (S k) n)))).
  { apply Forall_forall. intros i I. apply filter_In in I. destruct I as (I & _).
    apply in_map_iff in I. destruct I as (j & <- & J). apply in_seq in J.
    apply before_spec; [easy|apply (raw_valid chars k N X)|apply (raw_valid chars j N X)|].
    apply raw_before; try easy. }
  destruct (negb (mem (raw_ident chars k) keywords)); [|apply IH]. constructor; [apply IH|exact T].
Qed.

Theorem C36_distinct : forall chars n, alphabet chars -> NoDup (get_idents chars n).
Proof.
  intros chars n A. pose proof (C36_ordered chars n A) as S.
  assert (V : Forall (valid_ident chars) (get_idents chars n)).
  { apply Forall_forall. intros i I. unfold get_idents in I. apply filter_In in I. destruct I as (I & _).
    apply in_map_iff in I. destruct I as (j & <- & _). now apply raw_valid; destruct A. }
  induction S as [|x l S IH F]; [constructor|]. inversion V; subst. constructor; [|now apply IH].
  intros I. rewrite Forall_forall in F. specialize (F x I).
  apply before_spec in F; [|apply A|apply H1..]. now apply before_irrefl in F.
Qed.

Theorem C36_valid : forall chars n i, alphabet chars -> In i (get_idents chars n) ->
  valid_ident chars i /\ ~ In i M_Token.keywords.
Proof.
  intros chars n i (N & X) I. unfold get_idents in I. apply filter_In in I. destruct I as (I & K).
  apply in_map_iff in I. destruct I as (j & <- & _). split; [now apply raw_valid|].
  intros J. apply negb_true_iff in K.
  assert (Q : mem (raw_ident chars j) keywords = true); [|congruence].
  apply mem_In. cbn in J |- *. tauto.
Qed.

(** every valid identifier appears *)
Theorem C36_complete : forall chars i, alphabet chars -> valid_ident chars i -> ~ In i M_Token.keywords ->
  exists n, In i (get_idents chars n).
Proof.
  intros chars i (N & X) V K. destruct (raw_complete chars i N X V) as (n & E). exists (S n).
  unfold get_idents. apply filter_In. split.
  - rewrite <- E. apply in_map. apply in_seq. lia.
  - destruct (mem i keywords) eqn:M; [|easy]. apply mem_In in M. destruct K. cbn in M |- *. tauto.
Qed.

(** the alphabets of the program, in the order of how often the cart uses the
    characters.  Picotron does not take focus.chars (run_shrinko.py l.159). *)
Lemma range_In a b c : In c (zrange_ab a b) <-> (a <= c < b)%Z.
Proof.
  unfold zrange_ab. rewrite in_map_iff. split.
  - intros (i & <- & I). apply in_seq in I. lia.
  - intros H. exists (Z.to_nat (c - a)). split; [lia|]. apply in_seq. lia.
Qed.

Lemma range_NoDup a b : NoDup (zrange_ab a b).
Proof.
  unfold zrange_ab. apply map_NoDup_in; [|apply seq_NoDup]. intros x y _ _ E. lia.
Qed.

Lemma dup_check (l : list Z) :
  (fix go l := match l with [] => true | x :: l' => negb (zmem x l') && go l' end) l = true -> NoDup l.
Proof.
  induction l as [|x l IH]; [constructor|]. rewrite andb_true_iff, negb_true_iff. intros (A & B).
  constructor; [|now apply IH]. now apply zmem_false.
Qed.

Theorem C36_alphabets : forall focus used, NoDup used ->
  alphabet (ident_chars used (k_identifier_chars focus)).
Proof.
  intros focus used N. split.
  - apply ident_chars_NoDup; [easy|].
    destruct focus as [|[|[|focus]]]; apply dup_check; vm_compute; reflexivity.
  - exists 97%Z. split; [|easy]. apply ident_chars_In. unfold k_identifier_chars.
    destruct focus as [|[|[|focus]]]; now left.
Qed.

Lemma ident_char_alphabet lang focus c : (lang = M_Fold.Picotron -> focus <> 1) ->
  In c (k_identifier_chars focus) -> M_Token.is_ident_char lang c = true /\
  (isdigit c = false -> M_Token.is_dec_digit c = false).
Proof.
  intros L I. split.
  - assert (Hc : ((97 <= c < 123) \/ (65 <= c < 91) \/ (48 <= c < 58) \/ c = 95 \/
                 (focus = 1%nat /\ (c = 30 \/ c = 31 \/ 128 <= c < 256)))%Z).
    { unfold k_identifier_chars in I. destruct focus as [|[|[|focus]]];
        rewrite ?in_app_iff, ?range_In in I; cbn [In] in I; intuition lia. }
    unfold M_Token.is_ident_char. destruct lang; cbn [M_Token.is_pico8 andb]; [|specialize (L eq_refl)];
      rewrite ?orb_true_iff, ?andb_true_iff, ?Z.leb_le, ?Z.eqb_eq; lia.
  - unfold isdigit, M_Token.is_dec_digit. destruct ((48 <=? c) && (c <=? 57))%Z; easy.
Qed.

(** each of them is read back as one identifier *)
Lemma valid_read lang focus used i : (lang = M_Fold.Picotron -> focus <> 1) -> valid_ident (ident_chars used (k_identifier_chars focus)) i -> ~ In i keywords ->
  M_Token.tokenize lang i = Ok [M_Token.Tok M_Token.TIdent i].
Proof.
  intros L (Ne & Ic & Hd) K.
  assert (A : forall c, In c i -> M_Token.is_ident_char lang c = true /\
    (isdigit c = false -> M_Token.is_dec_digit c = false)).
  { intros c J. apply (ident_char_alphabet lang focus); [easy|]. apply ident_chars_In with used. now apply Ic. }
  destruct i as [|c i]; [easy|]. cbn [hd] in Hd. unfold M_Token.tokenize. cbn [length M_Token.tok_loop].
  destruct (A c (or_introl eq_refl)) as (A1 & A2).
  assert (W : M_Token.mem c M_Token.k_wspace = false).
  { destruct (M_Token.mem c M_Token.k_wspace) eqn:Q; [|easy]. unfold M_Token.mem in Q. apply existsb_exists in Q.
    destruct Q as (w & Iw & E). apply Z.eqb_eq in E. subst w. cbn in Iw.
    unfold M_Token.is_ident_char in A1. destruct lang; cbn in A1;
      repeat destruct Iw as [<-|Iw]; try discriminate A1; easy. }
  assert (Dot : (c =? 46)%Z = false).
  { apply Z.eqb_neq. intros ->. destruct lang; discriminate A1. }
  unfold M_Token.tok_round. rewrite W, (A2 Hd), Dot. cbn [orb andb]. rewrite A1.
  assert (S : M_Token.span (M_Token.is_ident_char lang) (c :: i) = (c :: i, [])).
  { revert A. generalize (c :: i) as l. clear. induction l as [|x l IH]; intros A; [easy|].
    cbn [M_Token.span]. rewrite (proj1 (A x (or_introl eq_refl))), IH; [easy|]. intros y J. apply A. now right. }
  rewrite S. assert (T : forall f, M_Token.tok_loop f lang [] = Ok []) by (now intros []).
  rewrite T. cbn [bind app]. unfold M_Token.ident_tok, M_Token.is_keyword.
  destruct (existsb (zeqb_list (c :: i)) M_Token.keywords) eqn:Q; [|easy].
  apply existsb_exists in Q. destruct Q as (w & Iw & E). apply zeqb_list_true in E. now subst w.
Qed.
Theorem C36_read_back : forall lang focus used n i, (lang = M_Fold.Picotron -> focus <> 1) -> NoDup used ->
  In i (get_idents (ident_chars used (k_identifier_chars focus)) n) ->
  M_Token.tokenize lang i = Ok [M_Token.Tok M_Token.TIdent i].
Proof.
  intros lang focus used n i L Nu I.
  destruct (C36_valid _ n i (C36_alphabets focus used Nu) I) as (V & K). exact (valid_read lang focus used i L V K).
Qed.

(** a case: the default alphabet in a cart where "e" is the most used character *)
Example C36_case : alphabet (ident_chars [101; 32; 116]%Z (k_identifier_chars 0)) /\
  firstn 4 (get_idents (ident_chars [101; 32; 116]%Z (k_identifier_chars 0)) 4) =
  [[101]; [116]; [97]; [98]]%Z.
Proof. split; [apply C36_alphabets; apply dup_check; reflexivity|vm_compute; reflexivity]. Qed.

(* ------------------------------------------------------------------ *)
(** * C38: the preserve rules *)

(** names without "*" and ".", as all identifiers are *)
Definition plain (n : name) : Prop := ~ In 42%Z n /\ ~ In 46%Z n.

Theorem C38_globals : forall builtins members rs n, plain n ->
  ie_contains (r_globals (read_rules builtins members rs)) n = true <-> preserved_global builtins rs n.
Proof. intros builtins members rs n (A & B). now apply ie_contains_spec. Qed.

Theorem C38_members : forall builtins members rs t n, plain t -> plain n ->
  tm_contains (r_members (read_rules builtins members rs)) t n = true <-> preserved_member members rs t n.
Proof. intros builtins members rs t n (A & B) (C & _). now apply tm_contains_spec. Qed.

(** members follow the globals exactly when "*=*.*" or "*.*=*" is given *)
Definition as_globals (rs : list name) : Prop :=
  exists r v, In r rs /\ (rule_of r = (v, str "*=*.*") \/ rule_of r = (v, str "*.*=*")).

Theorem C38_as_globals : forall builtins members rs,
  r_as_globals (read_rules builtins members rs) = true <-> as_globals rs.
Proof. apply as_globals_spec. Qed.

(** a name that a rule preserves by name is still renamed if a negative
    wildcard matches it, wherever that rule stands *)
Theorem C38_explicit_refuted : ~ (forall builtins rs n, plain n -> In n rs ->
  (forall r, In r rs -> r <> 33%Z :: n) -> preserved_global builtins rs n).
Proof.
  intros H. specialize (H [] [str "!foo_*"; str "foo_x"] (str "foo_x")).
  destruct H as (_ & H & _).
  - split; intros I; vm_compute in I; intuition discriminate.
  - right. now left.
  - intros r [<-|[<-|[]]]; discriminate.
  - apply (H (str "foo_*")).
    + exists (str "!foo_*"). split; [now left|]. split; [reflexivity|]. vm_compute. intuition discriminate.
    + split; [vm_compute; tauto|discriminate].
    + apply fnmatch_glob. reflexivity.
Qed.

(** cases from the README *)
Example C38_case :
  preserved_global [str "circfill"] [str "my_global_1"; str "update_*"; str "!circfill"] (str "update_all") /\
  ~ preserved_global [str "circfill"] [str "my_global_1"; str "update_*"; str "!circfill"] (str "circfill") /\
  preserved_member [] [str "*.*"; str "!*.my_*"] (str "t") (str "x") /\
  ~ preserved_member [] [str "*.*"; str "!*.my_*"] (str "t") (str "my_x").
Proof.
  rewrite <- !(C38_globals _ []), <- !(C38_members []);
    try (split; intros I; vm_compute in I; intuition discriminate).
  repeat split; try reflexivity; intros E; discriminate E.
Qed.

(* ------------------------------------------------------------------ *)
(** * C37: renaming *)

(** the options of a run: an alphabet, rules that were read, and local builtins
    (functions that the program copies to locals) that are builtins and are
    preserved *)
Definition run_opts (o : opts) (rs : list name) : Prop :=
  alphabet (o_chars o) /\ o_rules o = read_rules (o_builtins o) (o_members o) rs /\
  forall n, In n (o_locals o) -> plain n /\ In n (o_builtins o) /\ preserved_global (o_builtins o) rs n.

Lemma run_opts_ok o rs : run_opts o rs -> opts_ok o.
Proof.
  intros ((N & X) & R & L). split; [easy|]. split; [easy|]. intros n I.
  destruct (L n I) as (P & B & Q). split; [easy|]. rewrite R. now apply C38_globals.
Qed.

Lemma Forall2_maps {A B C} (R : B -> C -> Prop) (f : A -> B) (g : A -> C) l :
  (forall x, In x l -> R (f x) (g x)) -> Forall2 R (map f l) (map g l).
Proof.
  induction l as [|x l IH]; intros H; constructor; [apply H; now left|]. apply IH. intros y I. apply H. now right.
Qed.

Lemma combine_maps {A B C} (f : A -> B) (g : A -> C) l x y :
  In (x, y) (combine (map f l) (map g l)) -> exists a, In a l /\ x = f a /\ y = g a.
Proof.
  induction l as [|a l IH]; [easy|]. cbn [map combine]. intros [[= <- <-]|I].
  - exists a. split; [now left|easy].
  - destruct (IH I) as (b & J & E). exists b. split; [now right|easy].
Qed.

(** Every name in the renamed program means what it meant: the same local, the
    same label, a global where there was a global, a key where there was a key. *)
Theorem C37_same_meaning : forall o rs fuel prog prog', run_opts o rs ->
  rename_tokens o fuel prog = Ok prog' ->
  Forall2 same_use (occurrences (o_locals o) prog) (occurrences (o_locals o) prog').
Proof.
  intros o rs fuel prog prog' Ho E. apply run_opts_ok in Ho.
  apply rename_inv in E. destruct E as (L & rn & E & ->).
  rewrite !parse_occurrences, (rename_parse o prog fuel rn Ho L E), map_map.
  apply Forall2_maps. intros nd _. unfold occ_of. cbn [ren_node n_kind]. destruct (n_kind nd); reflexivity.
Qed.

(** the node behind an occurrence *)
Lemma becomes_node o rs fuel prog prog' a b : run_opts o rs -> rename_tokens o fuel prog = Ok prog' ->
  becomes (o_locals o) prog prog' a b ->
  exists rn nd, let nodes := parse (o_locals o) prog in
    assign o nodes fuel [] (todo0 o nodes) [] = Ok rn /\
    In nd nodes /\ a = occ_of nd /\ b = occ_of (ren_node (newF o nodes rn) nd).
Proof.
  intros Ho E. apply run_opts_ok in Ho.
  apply rename_inv in E. destruct E as (L & rn & E & ->). unfold becomes.
  rewrite !parse_occurrences, (rename_parse o prog fuel rn Ho L E), map_map.
  intros I. apply combine_maps in I. destruct I as (nd & I & Ea & Eb). now exists rn, nd.
Qed.

Section Run.
Context (o : opts) (rs : list name) (fuel : nat) (prog prog' : list syn)
  (Ho : run_opts o rs) (E : rename_tokens o fuel prog = Ok prog').
Notation nodes := (parse (o_locals o) prog).
Notation into := (becomes (o_locals o) prog prog').

Let Nc : NoDup (o_chars o). Proof. apply Ho. Qed.
Let Xc : exists c, In c (o_chars o) /\ isdigit c = false. Proof. apply Ho. Qed.

Lemma node_of a b : into a b -> exists rn nd,
  assign o nodes fuel [] (todo0 o nodes) [] = Ok rn /\ good_renames o nodes rn /\
  In nd nodes /\ a = occ_of nd /\
  b = occ_of {| n_name := new_name o nodes rn nd; n_kind := n_kind nd; n_chain := n_chain nd;
                n_implicit := n_implicit nd; n_zero := n_zero nd |}.
Proof.
  intros I. destruct (becomes_node o rs fuel prog prog' a b Ho E I) as (rn & nd & A & B & C & D).
  exists rn, nd. split; [easy|]. split; [now apply (assign_all o nodes Nc Xc fuel)|]. easy.
Qed.

Lemma global_node n n' : into (OGlobal n) (OGlobal n') -> exists rn nd,
  assign o nodes fuel [] (todo0 o nodes) [] = Ok rn /\ good_renames o nodes rn /\
  In nd nodes /\ n_kind nd = KGlobal /\ n_name nd = n /\ new_name o nodes rn nd = n'.
Proof.
  intros I. destruct (node_of _ _ I) as (rn & nd & A & G & B & C & D). exists rn, nd.
  unfold occ_of in C, D. cbn [n_kind n_name] in D. destruct (n_kind nd); try discriminate C.
  injection C as ->. injection D as ->. easy.
Qed.

Lemma member_node t n u n' : into (OMember t n) (OMember u n') -> u = t /\ exists rn nd,
  assign o nodes fuel [] (todo0 o nodes) [] = Ok rn /\ good_renames o nodes rn /\
  In nd nodes /\ n_kind nd = KMember t /\ n_name nd = n /\ new_name o nodes rn nd = n'.
Proof.
  intros I. destruct (node_of _ _ I) as (rn & nd & A & G & B & C & D).
  unfold occ_of in C, D. cbn [n_kind n_name] in D. destruct (n_kind nd) eqn:K; try discriminate C.
  injection C as -> ->. injection D as -> ->. split; [easy|]. now exists rn, nd.
Qed.

Lemma rules_read : o_rules o = read_rules (o_builtins o) (o_members o) rs.
Proof. apply Ho. Qed.

(** the kinds a key can have: kept, renamed as a global, renamed as a member *)
Inductive key_class := CKept | CGlobal | CMember.
Definition class_of (nd : node) : key_class :=
  match effective o nodes nd with
  | Keep _ => CKept
  | Rename (VGlobal _) => CGlobal
  | Rename _ => CMember
  end.

(** the new name of a node whose variable is renamed *)
Lemma renamed_name rn nd v : assign o nodes fuel [] (todo0 o nodes) [] = Ok rn -> In nd nodes ->
  effective o nodes nd = Rename v -> In (v, new_name o nodes rn nd) rn /\ lookup rn v = Some (new_name o nodes rn nd).
Proof.
  intros A I Ef. destruct (new_name_cases o nodes Nc Xc fuel rn A nd I) as [(x & a & Ex & Ia & Na & La)|(x & Ex & _)].
  - rewrite Ef in Ex. injection Ex as <-. now rewrite Na.
  - congruence.
Qed.

Lemma kept_name rn nd x : effective o nodes nd = Keep x -> new_name o nodes rn nd = n_name nd.
Proof. intros Ef. unfold new_name. now rewrite Ef. Qed.

(** two keys renamed or kept in the same space: equal new names only for equal names *)
Lemma global_space rn nd1 nd2 : assign o nodes fuel [] (todo0 o nodes) [] = Ok rn -> good_renames o nodes rn ->
  In nd1 nodes -> In nd2 nodes ->
  (effective o nodes nd1 = Rename (VGlobal (n_name nd1)) \/ effective o nodes nd1 = Keep (Some (VGlobal (n_name nd1)))) ->
  (effective o nodes nd2 = Rename (VGlobal (n_name nd2)) \/ effective o nodes nd2 = Keep (Some (VGlobal (n_name nd2)))) ->
  new_name o nodes rn nd1 = new_name o nodes rn nd2 -> n_name nd1 = n_name nd2.
Proof.
  intros A (G1 & G2) I1 I2 [E1|E1] [E2|E2] Q.
  - destruct (renamed_name _ _ _ A I1 E1) as (R1 & _), (renamed_name _ _ _ A I2 E2) as (R2 & _).
    rewrite Q in R1. destruct (vid_dec (VGlobal (n_name nd1)) (VGlobal (n_name nd2))) as [[= ?]|N]; [easy|].
    now specialize (G1 _ _ _ R1 R2 N).
  - exfalso. destruct (renamed_name _ _ _ A I1 E1) as (R1 & _). rewrite (kept_name rn nd2 _ E2) in Q. rewrite Q in R1.
    destruct (G2 _ _ R1) as (_ & _ & H). destruct (H eq_refl) as (_ & _ & H').
    specialize (H' _ (kept_global_excluded o nodes nd2 _ I2 E2)). discriminate H'.
  - exfalso. destruct (renamed_name _ _ _ A I2 E2) as (R2 & _). rewrite (kept_name rn nd1 _ E1) in Q. rewrite <- Q in R2.
    destruct (G2 _ _ R2) as (_ & _ & H). destruct (H eq_refl) as (_ & _ & H').
    specialize (H' _ (kept_global_excluded o nodes nd1 _ I1 E1)). discriminate H'.
  - now rewrite (kept_name rn nd1 _ E1), (kept_name rn nd2 _ E2) in Q.
Qed.

Lemma member_space rn nd1 nd2 : assign o nodes fuel [] (todo0 o nodes) [] = Ok rn -> good_renames o nodes rn ->
  In nd1 nodes -> In nd2 nodes ->
  (effective o nodes nd1 = Rename (VMember (n_name nd1)) \/ effective o nodes nd1 = Keep (Some (VMember (n_name nd1)))) ->
  (effective o nodes nd2 = Rename (VMember (n_name nd2)) \/ effective o nodes nd2 = Keep (Some (VMember (n_name nd2)))) ->
  new_name o nodes rn nd1 = new_name o nodes rn nd2 -> n_name nd1 = n_name nd2.
Proof.
  intros A (G1 & G2) I1 I2 [E1|E1] [E2|E2] Q.
  - destruct (renamed_name _ _ _ A I1 E1) as (R1 & _), (renamed_name _ _ _ A I2 E2) as (R2 & _).
    rewrite Q in R1. destruct (vid_dec (VMember (n_name nd1)) (VMember (n_name nd2))) as [[= ?]|N]; [easy|].
    now specialize (G1 _ _ _ R1 R2 N).
  - exfalso. destruct (renamed_name _ _ _ A I1 E1) as (R1 & _). rewrite (kept_name rn nd2 _ E2) in Q. rewrite Q in R1.
    destruct (G2 _ _ R1) as (_ & _ & H). destruct (H eq_refl) as (_ & _ & H').
    specialize (H' _ (kept_member_excluded o nodes nd2 _ I2 E2)). discriminate H'.
  - exfalso. destruct (renamed_name _ _ _ A I2 E2) as (R2 & _). rewrite (kept_name rn nd1 _ E1) in Q. rewrite <- Q in R2.
    destruct (G2 _ _ R2) as (_ & _ & H). destruct (H eq_refl) as (_ & _ & H').
    specialize (H' _ (kept_member_excluded o nodes nd1 _ I1 E1)). discriminate H'.
  - now rewrite (kept_name rn nd1 _ E1), (kept_name rn nd2 _ E2) in Q.
Qed.

Lemma same_var rn nd1 nd2 v : assign o nodes fuel [] (todo0 o nodes) [] = Ok rn -> In nd1 nodes -> In nd2 nodes ->
  effective o nodes nd1 = Rename v -> effective o nodes nd2 = Rename v ->
  new_name o nodes rn nd1 = new_name o nodes rn nd2.
Proof.
  intros A I1 I2 E1 E2. destruct (renamed_name _ _ _ A I1 E1) as (_ & L1), (renamed_name _ _ _ A I2 E2) as (_ & L2).
  congruence.
Qed.

Lemma same_rn rn rn' : assign o nodes fuel [] (todo0 o nodes) [] = Ok rn ->
  assign o nodes fuel [] (todo0 o nodes) [] = Ok rn' -> rn' = rn.
Proof. congruence. Qed.

Lemma global_preserved n : plain n -> ie_contains (r_globals (o_rules o)) n = true <-> preserved_global (o_builtins o) rs n.
Proof. intros P. rewrite rules_read. now apply C38_globals. Qed.

Lemma member_preserved t n : plain t -> plain n ->
  tm_contains (r_members (o_rules o)) t n = true <-> preserved_member (o_members o) rs t n.
Proof. intros P Q. rewrite rules_read. now apply C38_members. Qed.

Lemma globals_mode : r_as_globals (o_rules o) = true <-> as_globals rs.
Proof. rewrite rules_read. apply C38_as_globals. Qed.
End Run.

(** Globals: two global names are the same in the renamed program exactly when
    they were the same. *)
Theorem C37_globals_apart : forall o rs fuel prog prog' n n' m m', run_opts o rs ->
  rename_tokens o fuel prog = Ok prog' ->
  becomes (o_locals o) prog prog' (OGlobal n) (OGlobal n') ->
  becomes (o_locals o) prog prog' (OGlobal m) (OGlobal m') ->
  (n' = m' <-> n = m).
Proof.
  intros o rs fuel prog prog' n n' m m' Ho E I1 I2.
  destruct (global_node o rs fuel prog prog' Ho E _ _ I1) as (rn & nd1 & A & G & B1 & K1 & N1 & Q1).
  destruct (global_node o rs fuel prog prog' Ho E _ _ I2) as (rn' & nd2 & A' & _ & B2 & K2 & N2 & Q2).
  rewrite (same_rn _ _ _ rn rn' A A') in *. subst n m n' m'. split.
  - intros Q. eapply (global_space o rs fuel prog Ho rn nd1 nd2); eauto using effective_global_node.
  - intros Q. unfold new_name. rewrite (effective_eq o _ nd1 nd2) by congruence.
    rewrite Q. reflexivity.
Qed.

(** Preserved names stay as they are. *)
Theorem C37_preserved_globals : forall o rs fuel prog prog' n n', run_opts o rs ->
  rename_tokens o fuel prog = Ok prog' -> plain n ->
  becomes (o_locals o) prog prog' (OGlobal n) (OGlobal n') ->
  preserved_global (o_builtins o) rs n -> n' = n.
Proof.
  intros o rs fuel prog prog' n n' Ho E P I Pr.
  destruct (global_node o rs fuel prog prog' Ho E _ _ I) as (rn & nd & A & G & B & K & N & Q).
  apply (global_preserved o rs Ho n P) in Pr. subst n'. unfold new_name, effective, effective_global.
  rewrite K, N, Pr, orb_true_r. easy.
Qed.

Theorem C37_preserved_members : forall o rs fuel prog prog' t u n n', run_opts o rs ->
  rename_tokens o fuel prog = Ok prog' -> plain t -> plain n ->
  becomes (o_locals o) prog prog' (OMember t n) (OMember u n') ->
  preserved_member (o_members o) rs t n -> n' = n.
Proof.
  intros o rs fuel prog prog' t u n n' Ho E Pt P I Pr.
  destruct (member_node o rs fuel prog prog' Ho E _ _ _ _ I) as (_ & rn & nd & A & G & B & K & N & Q).
  apply (member_preserved o rs Ho t n Pt P) in Pr. subst n'. unfold new_name, effective.
  rewrite K, N, Pr. easy.
Qed.

(** Members, unless the rules say that they follow the globals: two keys have
    the same new name only if they had the same name, and two keys of the same
    name that are not preserved get the same new name.  Keys of _ENV are
    globals. *)
Theorem C37_members_apart : forall o rs fuel prog prog' t u n n' m m', run_opts o rs ->
  rename_tokens o fuel prog = Ok prog' -> ~ as_globals rs -> t <> env_name -> u <> env_name ->
  becomes (o_locals o) prog prog' (OMember t n) (OMember t n') ->
  becomes (o_locals o) prog prog' (OMember u m) (OMember u m') ->
  (n' = m' -> n = m) /\
  (plain t -> plain u -> plain n -> plain m ->
   ~ preserved_member (o_members o) rs t n -> ~ preserved_member (o_members o) rs u m ->
   n = m -> n' = m').
Proof.
  intros o rs fuel prog prog' t u n n' m m' Ho E Ng Nt Nu I1 I2.
  destruct (member_node o rs fuel prog prog' Ho E _ _ _ _ I1) as (_ & rn & nd1 & A & G & B1 & K1 & N1 & Q1).
  destruct (member_node o rs fuel prog prog' Ho E _ _ _ _ I2) as (_ & rn' & nd2 & A' & _ & B2 & K2 & N2 & Q2).
  rewrite (same_rn _ _ _ rn rn' A A') in *. clear rn' A'.
  assert (Ng' : r_as_globals (o_rules o) = false).
  { destruct (r_as_globals (o_rules o)) eqn:Q; [|easy]. now apply (globals_mode o rs Ho) in Q. }
  set (nodes := parse (o_locals o) prog) in *.
  assert (F : forall tb nd, n_kind nd = KMember tb -> tb <> env_name ->
    effective o nodes nd = if tm_contains (r_members (o_rules o)) tb (n_name nd)
                           then Keep (Some (VMember (n_name nd))) else Rename (VMember (n_name nd))).
  { intros tb nd K N. unfold effective. rewrite K, Ng'. apply zeqb_list_false in N. rewrite N. easy. }
  split.
  - intros Q. subst n m. apply (member_space o rs fuel prog Ho rn nd1 nd2); try easy.
    + fold nodes. rewrite (F t nd1 K1 Nt). destruct (tm_contains _ _ _); tauto.
    + fold nodes. rewrite (F u nd2 K2 Nu). destruct (tm_contains _ _ _); tauto.
    + fold nodes. congruence.
  - intros Pt Pu Pn Pm X1 X2 Q. subst n'. rewrite <- (member_preserved o rs Ho), not_true_iff_false in X1, X2 by easy.
    rewrite <- Q2. apply (same_var o rs fuel prog Ho rn nd1 nd2 (VMember n)); try easy; fold nodes.
    + rewrite (F t nd1 K1 Nt), N1, X1. easy.
    + rewrite (F u nd2 K2 Nu), N2, X2, Q. easy.
Qed.

(** Keys of _ENV, or all keys if the rules say so, that are not preserved, go
    with the globals; "print" is the one name that a program can use without
    writing it ("?"). *)
Theorem C37_keys_as_globals : forall o rs fuel prog prog' t n n' m m', run_opts o rs ->
  rename_tokens o fuel prog = Ok prog' -> t = env_name \/ as_globals rs -> plain t -> plain n ->
  ~ preserved_member (o_members o) rs t n ->
  becomes (o_locals o) prog prog' (OMember t n) (OMember t n') ->
  becomes (o_locals o) prog prog' (OGlobal m) (OGlobal m') ->
  (n' = m' -> n = m) /\ (n <> print_name -> n = m -> n' = m').
Proof.
  intros o rs fuel prog prog' t n n' m m' Ho E Md Pt Pn X I1 I2.
  destruct (member_node o rs fuel prog prog' Ho E _ _ _ _ I1) as (_ & rn & nd1 & A & G & B1 & K1 & N1 & Q1).
  destruct (global_node o rs fuel prog prog' Ho E _ _ I2) as (rn' & nd2 & A' & _ & B2 & K2 & N2 & Q2).
  rewrite (same_rn _ _ _ rn rn' A A') in *. clear rn' A'.
  rewrite <- (member_preserved o rs Ho), not_true_iff_false in X by easy.
  set (nodes := parse (o_locals o) prog) in *.
  assert (F : effective o nodes nd1 = effective_global o n false).
  { unfold effective. rewrite K1, N1, X. destruct Md as [->|Md]; [now rewrite zeqb_list_refl|].
    apply (globals_mode o rs Ho) in Md. now rewrite Md, orb_true_r. }
  split.
  - intros Q. subst n m. apply (global_space o rs fuel prog Ho rn nd1 nd2); try easy; fold nodes.
    + rewrite F. unfold effective_global. destruct (_ || _); tauto.
    + now apply effective_global_node.
    + congruence.
  - intros Np Q. subst m. rewrite <- Q1, <- Q2. unfold new_name. rewrite F. unfold effective at 1. rewrite K2.
    replace (implicit_global nodes (n_name nd2)) with false; [rewrite <- Q, N1; reflexivity|].
    symmetry. apply not_true_iff_false. intros Im. unfold implicit_global in Im. apply existsb_exists in Im.
    destruct Im as (nd & I & Im). apply andb_true_iff in Im. destruct Im as (Im & Kn).
    destruct (n_kind nd) eqn:Kd; try discriminate Kn. apply zeqb_list_true in Kn.
    apply Np. rewrite Q, Kn. now apply (implicit_parse (o_locals o) prog nd).
Qed.

(** New names: a name that changes becomes a valid identifier of the alphabet,
    no keyword and (labels aside) not "_ENV". *)
Definition name_of (a : occ) : name :=
  match a with OLocal n _ | OGlobal n | OMember _ n | OLabel n _ => n end.

Theorem C37_new_names : forall o rs fuel prog prog' a b, run_opts o rs ->
  rename_tokens o fuel prog = Ok prog' -> becomes (o_locals o) prog prog' a b ->
  name_of b = name_of a \/
  (valid_ident (o_chars o) (name_of b) /\ ~ In (name_of b) M_Token.keywords /\
   ((exists n v, a = OLabel n v) \/ name_of b <> env_name)).
Proof.
  intros o rs fuel prog prog' a b Ho E I.
  destruct (node_of o rs fuel prog prog' Ho E _ _ I) as (rn & nd & A & (_ & G) & B & -> & ->).
  assert (Na : forall nd, name_of (occ_of nd) = n_name nd) by (intros d; unfold occ_of; now destruct (n_kind d)).
  rewrite !Na. cbn [n_name].
  destruct (new_name_cases o _ (proj1 (proj1 Ho)) (proj2 (proj1 Ho)) fuel rn A nd B)
    as [(v & x & Ef & Iv & Nv & _)|(x & _ & Nv)]; [|now left].
  right. rewrite Nv. destruct (G v x Iv) as (V & K & L). split; [easy|]. split.
  - intros J. apply K. cbn in J |- *. tauto.
  - destruct (is_label v) eqn:Lv.
    + left. destruct v; try discriminate Lv. unfold effective, effective_global in Ef.
      destruct (n_kind nd) as [| | |[w|]] eqn:Kd.
      * destruct (_ || _) in Ef; [discriminate Ef|]. destruct (zeqb_list _ _) in Ef; discriminate Ef.
      * destruct (_ || _) in Ef; discriminate Ef.
      * destruct (tm_contains _ _ _) in Ef; [discriminate Ef|].
        destruct (_ || _) in Ef; [|discriminate Ef]. destruct (_ || _) in Ef; discriminate Ef.
      * unfold occ_of. rewrite Kd. eauto.
      * discriminate Ef.
    + right. now apply L.
Qed.

(** no global takes the name of a builtin, and no key the name of a built-in key *)
Theorem C37_no_new_builtins : forall o rs fuel prog prog', run_opts o rs ->
  rename_tokens o fuel prog = Ok prog' ->
  (forall n n', becomes (o_locals o) prog prog' (OGlobal n) (OGlobal n') ->
     n' <> n -> ~ In n' (o_builtins o)) /\
  (forall t n n', t <> env_name -> ~ as_globals rs ->
     becomes (o_locals o) prog prog' (OMember t n) (OMember t n') ->
     n' <> n -> ~ In n' (o_members o)).
Proof.
  intros o rs fuel prog prog' Ho E. split.
  - intros n n' I N J. destruct (global_node o rs fuel prog prog' Ho E _ _ I) as (rn & nd & A & (_ & G) & B & K & <- & <-).
    destruct (effective_global_node o (parse (o_locals o) prog) nd K) as [Ef|Ef].
    + destruct (renamed_name o rs fuel prog Ho rn nd _ A B Ef) as (R & _).
      destruct (G _ _ R) as (_ & _ & H). destruct (H eq_refl) as (_ & _ & X).
      assert (Q : compatible o (parse (o_locals o) prog) (VGlobal (n_name nd))
                    (VGlobal (new_name o (parse (o_locals o) prog) rn nd)) = true); [|discriminate Q].
      apply X. unfold excluded_for. apply in_or_app. left.
      replace (mem _ _) with true; [now left|]. symmetry. apply mem_In. unfold global_excludes. apply in_or_app. now left.
    + apply N. now apply (kept_name o prog rn nd (Some (VGlobal (n_name nd)))).
  - intros t n n' Nt Ng I N J. destruct (member_node o rs fuel prog prog' Ho E _ _ _ _ I) as (_ & rn & nd & A & (_ & G) & B & K & <- & <-).
    assert (Ng' : r_as_globals (o_rules o) = false).
    { destruct (r_as_globals (o_rules o)) eqn:Q; [|easy]. now apply (globals_mode o rs Ho) in Q. }
    assert (Ef : effective o (parse (o_locals o) prog) nd = Rename (VMember (n_name nd)) \/
                 effective o (parse (o_locals o) prog) nd = Keep (Some (VMember (n_name nd)))).
    { unfold effective. apply zeqb_list_false in Nt. rewrite K, Ng', Nt. destruct (tm_contains _ _ _); tauto. }
    destruct Ef as [Ef|Ef].
    + destruct (renamed_name o rs fuel prog Ho rn nd _ A B Ef) as (R & _).
      destruct (G _ _ R) as (_ & _ & H). destruct (H eq_refl) as (_ & _ & X).
      assert (Q : compatible o (parse (o_locals o) prog) (VMember (n_name nd))
                    (VMember (new_name o (parse (o_locals o) prog) rn nd)) = true); [|discriminate Q].
      apply X. unfold excluded_for. apply in_or_app. right. apply in_or_app. left.
      replace (mem _ (member_excludes _ _)) with true; [now left|]. symmetry. apply mem_In.
      unfold member_excludes. apply in_or_app. now left.
    + apply N. now apply (kept_name o prog rn nd (Some (VMember (n_name nd)))).
Qed.

(** Names after a number that ends in 0 keep their name, or do not become one
    that the number would swallow ("0b", "0x"). *)
Theorem C37_after_zero : forall o rs fuel prog prog', run_opts o rs -> o_pico8 o = true ->
  rename_tokens o fuel prog = Ok prog' ->
  Forall2 (fun n n' => n' = n \/ ~ In (hd 0%Z n') (str "bxBX"))
    (flat_map after_zero_names prog) (flat_map after_zero_names prog').
Proof.
  intros o rs fuel prog prog' Ho P8 E. pose proof (run_opts_ok o rs Ho) as Ho'.
  apply rename_inv in E. destruct E as (L & rn & E & ->).
  rewrite <- (zero_parse (o_locals o) prog), <- (zero_parse (o_locals o) (fst _)).
  rewrite (rename_parse o prog fuel rn Ho' L E). unfold zeros.
  pose proof (assign_all o (parse (o_locals o) prog) (proj1 (proj1 Ho)) (proj2 (proj1 Ho)) fuel rn E) as ((_ & G) & _).
  pose proof (new_name_cases o (parse (o_locals o) prog) (proj1 (proj1 Ho)) (proj2 (proj1 Ho)) fuel rn E) as C.
  set (nodes := parse (o_locals o) prog) in *.
  assert (H : forall nd, In nd nodes -> n_zero nd = true ->
    new_name o nodes rn nd = n_name nd \/ ~ In (hd 0%Z (new_name o nodes rn nd)) (str "bxBX")).
  { intros nd I Z. destruct (C nd I) as [(v & a & Ef & Iv & Nv & _)|(x & _ & Nv)]; [|now left].
    right. rewrite Nv. intros J. destruct (G v a Iv) as (_ & _ & Q).
    assert (Lv : is_label v = false).
    { destruct v; try easy. exfalso. unfold effective, effective_global in Ef.
      destruct (n_kind nd) as [| | |[w|]] eqn:Kd.
      - destruct (_ || _) in Ef; [discriminate Ef|]. destruct (zeqb_list _ _) in Ef; discriminate Ef.
      - destruct (_ || _) in Ef; discriminate Ef.
      - destruct (tm_contains _ _ _) in Ef; [discriminate Ef|].
        destruct (_ || _) in Ef; [|discriminate Ef]. destruct (_ || _) in Ef; discriminate Ef.
      - now apply (zero_not_label (o_locals o) prog nd I Z (Some w)).
      - discriminate Ef. }
    destruct (Q Lv) as (_ & Av & _). unfold avoided in Av. rewrite P8 in Av.
    apply zmem_In in J. rewrite J in Av. cbn [andb] in Av.
    assert (T : after_zero o nodes v = true); [|congruence].
    unfold after_zero. apply existsb_exists. exists nd. split; [easy|]. rewrite Z, Ef. cbn [andb]. apply vid_eqb_refl. }
  clear - H. revert H. generalize (newF o nodes rn) (new_name o nodes rn) (newF_fname o nodes rn).
  intros F g Fg. induction nodes as [|nd l IH]; intros H; [constructor|]. cbn [map filter].
  change (n_zero (ren_node F nd)) with (n_zero nd). destruct (n_zero nd) eqn:Z.
  - cbn [map]. constructor; [|apply IH; intros; apply H; [now right|easy]].
    change (n_name (ren_node F nd)) with (fname F nd). rewrite Fg. apply H; [now left|easy].
  - apply IH; intros; apply H; [now right|easy].
Qed.

(** Labels: in a Picotron program no two labels that see each other get the same
    name (Lua 5.4 rejects that even for nested blocks); in a PICO-8 program no
    two labels of a block do. *)
Theorem C37_labels : forall o rs fuel prog prog', run_opts o rs ->
  rename_tokens o fuel prog = Ok prog' -> labels_distinct (YBlock prog) ->
  if o_pico8 o then labels_distinct (YBlock prog') else labels_apart [] (YBlock prog').
Proof.
  intros o rs fuel prog prog' Ho E D. pose proof (run_opts_ok o rs Ho) as Ho'.
  apply rename_inv in E. destruct E as (L & rn & E & ->).
  pose proof (label_fact o (parse (o_locals o) prog) fuel rn (proj1 (proj1 Ho)) (proj2 (proj1 Ho)) E) as H.
  change (new_name o (parse (o_locals o) prog) rn) with (fname (newF o (parse (o_locals o) prog) rn)).
  assert (Nd : snd (walk_root (fname (newF o (parse (o_locals o) prog) rn)) (o_locals o) prog) = parse (o_locals o) prog)
    by (apply root_indep).
  set (nodes := parse (o_locals o) prog) in *. set (F := newF o nodes rn) in *. unfold walk_root in *.
  destruct (walks (fname F) [new_frame 0 (env_name :: o_locals o)]
              [(0, block_labels prog)] (1, 1) prog) as (((l', ns), k'), sc') eqn:W.
  cbn [fst snd] in *. subst ns.
  assert (Wb : walk (fname F) [new_frame 0 (env_name :: o_locals o)] [] (1, 0) (YBlock prog)
               = (YBlock l', nodes, k', [new_frame 0 (env_name :: o_locals o)])).
  { rewrite walk_eq. cbn zeta. unfold walk_block. cbn [fst snd]. now rewrite W. }
  destruct (apart_all F nodes (negb (o_pico8 o)) H (YBlock prog) _ _ _ _ _ _ _ Wb (incl_refl _) (labs_ok_nil _ _) D) as (R & _).
  unfold result in R. destruct (o_pico8 o); exact R.
Qed.

(** Renaming ends, if the program uses no unknown label and some character can
    start a name after a zero. *)
Theorem C37_ends : forall o prog, alphabet (o_chars o) ->
  (exists c, In c (o_chars o) /\ isdigit c = false /\ ~ In c (str "bxBX")) ->
  (forall n, ~ In (OLabel n None) (occurrences (o_locals o) prog)) ->
  exists fuel prog', forall fuel', fuel <= fuel' -> rename_tokens o fuel' prog = Ok prog'.
Proof.
  intros o prog (N & X) Xb L.
  destruct (assign_total o (parse (o_locals o) prog) N) as (fuel & rn & E).
  { destruct Xb as (c & A & B & C). exists c. split; [easy|]. split; [easy|].
    destruct (zmem c (str "bxBX")) eqn:Q; [|easy]. now apply zmem_In in Q. }
  exists fuel, (fst (walk_root (new_name o (parse (o_locals o) prog) rn) (o_locals o) prog)).
  intros fuel' Le. unfold rename_tokens. cbn zeta.
  assert (Lo : labels_ok (parse (o_locals o) prog) = true).
  { unfold labels_ok. apply forallb_forall. intros nd I. destruct (n_kind nd) as [| | |[v|]] eqn:K; try easy.
    destruct (L (n_name nd)). rewrite parse_occurrences. apply in_map_iff. exists nd. split; [|easy].
    unfold occ_of. now rewrite K. }
  rewrite Lo. cbn [check_ bind]. now rewrite (assign_mono o _ fuel fuel' Le _ _ _ _ E).
Qed.

(** With the rule "*=*.*" a renamed key can take the name of a preserved key, so
    that two keys of one table become one: t.n ("n", the length of packed
    arguments, is a built-in key) and t.bar both end up as t.n. *)
Definition refute_opts : opts :=
  {| o_pico8 := true; o_focus_chars := false; o_builtins := [str "print"]; o_members := [str "n"];
     o_locals := []; o_rules := read_rules [str "print"] [str "n"] [str "*=*.*"];
     o_chars := ident_chars [110%Z] (k_identifier_chars 0) |}.
Definition refute_prog : list syn := [YMember false (str "t") (str "n"); YMember false (str "t") (str "bar")].

Theorem C37_members_refuted : ~ (forall o rs fuel prog prog' t n n' m m', run_opts o rs ->
  rename_tokens o fuel prog = Ok prog' ->
  becomes (o_locals o) prog prog' (OMember t n) (OMember t n') ->
  becomes (o_locals o) prog prog' (OMember t m) (OMember t m') ->
  n' = m' -> n = m).
Proof.
  intros H.
  specialize (H refute_opts [str "*=*.*"] 5 refute_prog
    [YMember false (str "t") (str "n"); YMember false (str "t") (str "n")]
    (str "t") (str "n") (str "n") (str "bar") (str "n")).
  assert (Q : str "n" = str "bar"); [|discriminate Q]. apply H; try reflexivity.
  - split; [|split; [reflexivity|easy]]. apply C36_alphabets. constructor; [easy|constructor].
  - now left.
  - right. now left.
Qed.

(** a case for the theorems on renaming: locals, a shadowed name, a closure, a
    label, a builtin, keys and a name after a zero *)
Definition case_opts : opts :=
  {| o_pico8 := true; o_focus_chars := false; o_builtins := [str "print"; str "add"]; o_members := [str "n"];
     o_locals := [str "add"]; o_rules := read_rules [str "print"; str "add"] [str "n"] [str "keep_*"];
     o_chars := ident_chars [101; 116; 98]%Z (k_identifier_chars 0) |}.
Definition case_prog : list syn :=
  [ YLocal [str "score"; str "lives"] [YName false (str "start")];
    YLabel (str "top");
    YFor [str "i"] [] [YName false (str "score"); YMember true (str "player") (str "alive"); YGoto (str "top")];
    YFun true [str "score"] [YName true (str "score"); YName false (str "start"); YName false (str "self")];
    YName false (str "keep_me"); YName false (str "add"); YPrint ].

Example C37_case : run_opts case_opts [str "keep_*"] /\
  exists prog', rename_tokens case_opts 20 case_prog = Ok prog' /\ prog' <> case_prog /\
    labels_distinct (YBlock case_prog) /\
    becomes (o_locals case_opts) case_prog prog' (OGlobal (str "keep_me")) (OGlobal (str "keep_me")) /\
    becomes (o_locals case_opts) case_prog prog' (OGlobal (str "start")) (OGlobal (str "b")) /\
    flat_map after_zero_names prog' = [str "e"; str "e"].
Proof.
  split.
  - split; [|split; [reflexivity|]].
    + apply C36_alphabets. apply dup_check. reflexivity.
    + intros n [<-|[]]. split; [split; intros I; vm_compute in I; intuition discriminate|].
      split; [right; now left|].
      apply (C38_globals _ [str "n"]); [split; intros I; vm_compute in I; intuition discriminate|]. reflexivity.
  - eexists. split; [vm_compute; reflexivity|]. split; [intros E; discriminate E|].
    split; [|split; [|split]].
    + repeat (split; try exact I); repeat constructor; cbn; tauto.
    + unfold becomes. vm_compute. tauto.
    + unfold becomes. vm_compute. tauto.
    + reflexivity.
Qed.

Print Assumptions C36_one_stream.
Print Assumptions C36_ordered.
Print Assumptions C36_distinct.
Print Assumptions C36_valid.
Print Assumptions C36_complete.
Print Assumptions C36_alphabets.
Print Assumptions C36_read_back.
Print Assumptions C37_same_meaning.
Print Assumptions C37_globals_apart.
Print Assumptions C37_preserved_globals.
Print Assumptions C37_preserved_members.
Print Assumptions C37_members_apart.
Print Assumptions C37_keys_as_globals.
Print Assumptions C37_new_names.
Print Assumptions C37_no_new_builtins.
Print Assumptions C37_after_zero.
Print Assumptions C37_labels.
Print Assumptions C37_ends.
Print Assumptions C37_members_refuted.
Print Assumptions C38_globals.
Print Assumptions C38_members.
Print Assumptions C38_as_globals.
Print Assumptions C38_explicit_refuted.
