(** C79: a renamed program does the same. *)
From Coq Require Import String List ZArith Bool Lia.
From Verif Require Import M_Base M_Fold M_Token M_Expr M_Stmt M_Rename M_Names S_Rename S_Run S_Alpha L_Util L_Rules L_Scope L_RenameTop L_Alpha L_Link L_Link2 P_Rename S_Emit S_Toy P_Stmt P_Tidy P_Branch.
Import ListNotations.
Open Scope nat_scope.

Notation plain := P_Rename.plain.

(** ** Names that change places *)
Definition swap (a b x : name) : name := if zeqb_list x a then b else if zeqb_list x b then a else x.
Lemma swap_inv a b x : swap a b (swap a b x) = x.
Proof.
  unfold swap. destruct (zeqb_list x a) eqn:A.
  - apply zeqb_list_true in A. subst. destruct (zeqb_list b a) eqn:B; [now apply zeqb_list_true in B|]. now rewrite zeqb_list_refl.
  - destruct (zeqb_list x b) eqn:B; [|now rewrite A, B]. apply zeqb_list_true in B. subst. now rewrite zeqb_list_refl.
Qed.
Lemma swap_l a b : swap a b a = b. Proof. unfold swap. now rewrite zeqb_list_refl. Qed.
Lemma swap_r a b : swap a b b = a. Proof. unfold swap. destruct (zeqb_list b a) eqn:E; [now apply zeqb_list_true in E|]. now rewrite zeqb_list_refl. Qed.
Lemma swap_no a b x : x <> a -> x <> b -> swap a b x = x.
Proof. intros A B. unfold swap. apply zeqb_list_false in A, B. now rewrite A, B. Qed.
Lemma extend : forall ps : list (name * name), (forall n n' m m', In (n, n') ps -> In (m, m') ps -> (n' = m' <-> n = m)) ->
  exists g h : name -> name, (forall x, g (h x) = x) /\ (forall x, h (g x) = x) /\ (forall n n', In (n, n') ps -> g n' = n) /\
    (forall x, ~ In x (map fst ps) -> ~ In x (map snd ps) -> g x = x).
Proof.
  induction ps as [|[n n'] ps IH]; intros F.
  - exists (fun x => x), (fun x => x). repeat split; easy.
  - destruct IH as (g & h & A & B & C & D); [intros; eapply F; right; eassumption|].
    exists (fun x => swap n (g n') (g x)), (fun x => h (swap n (g n') x)). split; [|split; [|split]].
    + intros x. rewrite A. apply swap_inv.
    + intros x. rewrite swap_inv. apply B.
    + intros m m' [[= <- <-]|I]; [apply swap_r|]. rewrite (C _ _ I).
      destruct (F n n' m m' (or_introl eq_refl) (or_intror I)) as (F1 & F2).
      destruct (zeqb_list m n) eqn:E; [apply zeqb_list_true in E; subst; rewrite (F2 eq_refl), (C _ _ I); apply swap_l|].
      destruct (zeqb_list m (g n')) eqn:E2; [|apply zeqb_neq in E, E2; now apply swap_no].
      exfalso. apply zeqb_neq in E. apply E. symmetry. apply F1. apply zeqb_list_true in E2. rewrite <- (C _ _ I) in E2. rewrite <- (B n'), <- (B m'). now rewrite E2.
    + intros x X Y. cbn in X, Y. assert (Gx : g x = x) by (apply D; tauto). rewrite Gx. apply swap_no; [intros ->; tauto|].
      intros E. apply Y. left. rewrite <- (B n'), <- (B x). now rewrite Gx, <- E.
Qed.

(** ** The program *)
(** There is no local "_ENV", and no key of "_ENV" is written: "_ENV" is the table of the globals
    and not used as anything else. *)
Definition no_env (bs : list name) (prog : list syn) : Prop := forall v, In (OLocal env_name v) (occurrences bs prog) -> v = (0, 0).
Definition no_env_keys (bs : list name) (prog : list syn) : Prop := forall n, ~ In (OMember env_name n) (occurrences bs prog).
(** Keys are identifiers, and preserved for all tables or for none. *)
Definition even_keys (o : opts) (rs : list name) (prog : list syn) : Prop :=
  forall t u n, In (OMember t n) (occurrences (o_locals o) prog) -> In (OMember u n) (occurrences (o_locals o) prog) ->
    plain t /\ plain n /\ (preserved_member (o_members o) rs t n -> preserved_member (o_members o) rs u n).

Lemma F2_in {A B} (P Q : A -> B -> Prop) : forall l l', Forall2 P l l' -> (forall a b, In (a, b) (combine l l') -> P a b -> Q a b) -> Forall2 Q l l'.
Proof.
  intros l l' F. induction F as [|a b l l' H F IH]; intros G; constructor; [apply G; [now left|exact H]|]. apply IH. intros x y I. apply G. now right.
Qed.

Section Run.
Context (o : opts) (rs : list name) (fuel : nat) (prog prog' : list syn) (Ho : run_opts o rs) (E : rename_tokens o fuel prog = Ok prog').
Notation into := (becomes (o_locals o) prog prog').

Lemma into_left a b : into a b -> In a (occurrences (o_locals o) prog).
Proof. apply in_combine_l. Qed.
Lemma no_unknown n : ~ In (OLabel n None) (occurrences (o_locals o) prog).
Proof.
  destruct (rename_inv _ _ _ _ E) as (L & _). rewrite parse_occurrences. intros I. apply in_map_iff in I. destruct I as (nd & X & I).
  apply (L nd I). unfold occ_of in X. destruct (n_kind nd); try discriminate X. injection X as _ X. now subst.
Qed.
Lemma renamed_R g k : no_env (o_locals o) prog -> (forall n n', into (OGlobal n) (OGlobal n') -> g n' = n) ->
  (forall t n n', into (OMember t n) (OMember t n') -> k n' = n) ->
  Forall2 (R g k) (occurrences (o_locals o) prog) (occurrences (o_locals o) prog').
Proof.
  intros N G K. eapply F2_in; [exact (C37_same_meaning o rs fuel prog prog' Ho E)|]. intros a b I Sm.
  destruct a as [n v|n|t n|n v], b as [n' v'|n'|t' n'|n' v']; cbn in Sm; try contradiction.
  - subst v'. split; [reflexivity|]. intros V.
    assert (X : n <> env_name) by (intros ->; apply V; now rewrite (N v (into_left _ _ I))). split; [exact X|].
    destruct (C37_new_names _ _ _ _ _ _ _ Ho E I) as [Q|(_ & _ & [(? & ? & Q)|Q])]; cbn in Q; [now subst|discriminate Q|exact Q].
  - now apply G.
  - subst t'. now apply (K t).
  - subst v'. split; [reflexivity|]. intros ->. exact (no_unknown n (into_left _ _ I)).
Qed.
Lemma R_alpha g k b b' : map bare prog = names_blk b -> shape_blk b' = shape_blk b -> names_blk b' = map bare prog' ->
  (forall x, In x (env_name :: o_locals o) -> g x = x) -> Forall2 (R g k) (occurrences (o_locals o) prog) (occurrences (o_locals o) prog') ->
  alpha_blk (Gg g) (Kk k) [] (frame b b') b b'.
Proof.
  intros Eb Sh Eb' Hg F. eapply (program_link g k (o_locals o)); [exact Sh|exact Hg|].
  rewrite <- Eb, Eb', !bare_occurrences. clear -F. induction F as [|a b l l' H F IH]; constructor; [|exact IH].
  destruct a, b; cbn in H |- *; try contradiction; exact H.
Qed.
Lemma runs_R g k b b' : map bare prog = names_blk b -> shape_blk b' = shape_blk b -> names_blk b' = map bare prog' -> legal false b ->
  (forall x, In x (env_name :: o_locals o) -> g x = x) -> Forall2 (R g k) (occurrences (o_locals o) prog) (occurrences (o_locals o) prog') ->
  forall V Mem (m : machine V Mem) n me, run (renamed g k m) n b' me = run m n b me.
Proof.
  intros Eb Sh Eb' L Hg F V Mem m n me. apply alpha_run; [now apply R_alpha|exact L].
Qed.
End Run.

(** The renamed program is a program: the old one with other names, in the order of the text. *)
Theorem C79_tree : forall o fuel prog prog' b, rename_tokens o fuel prog = Ok prog' -> map bare prog = names_blk b ->
  exists b', shape_blk b' = shape_blk b /\ names_blk b' = map bare prog'.
Proof.
  intros o fuel prog prog' b E Eb. apply fill_program. rewrite <- Eb, map_form_list by (apply Forall_forall; intros; apply form_bare).
  destruct (rename_inv _ _ _ _ E) as (_ & rn & _ & ->). apply form_root.
Qed.

(** It does the same, on every machine and from every memory, if globals and keys are taken to be
    called by their new names: [g] and [k] give their old names, and are permutations of all
    names.  The same values or error, the same memory, or no end.  Asked of the program: what
    Lua asks of jumps, nothing unusual with "_ENV", and no key that is preserved for one table
    and renamed for another. *)
Theorem C79_runs : forall o rs fuel prog prog' b b', run_opts o rs -> ~ as_globals rs ->
  no_env (o_locals o) prog -> no_env_keys (o_locals o) prog -> even_keys o rs prog ->
  map bare prog = names_blk b -> legal false b ->
  rename_tokens o fuel prog = Ok prog' -> shape_blk b' = shape_blk b -> names_blk b' = map bare prog' ->
  exists g g' k k' : name -> name,
    (forall x, g (g' x) = x /\ g' (g x) = x /\ k (k' x) = x /\ k' (k x) = x) /\
    (forall n n', becomes (o_locals o) prog prog' (OGlobal n) (OGlobal n') -> g n' = n) /\
    (forall t n n', becomes (o_locals o) prog prog' (OMember t n) (OMember t n') -> k n' = n) /\
    (forall x, plain x -> In x (o_builtins o) -> preserved_global (o_builtins o) rs x -> g x = x) /\
    forall V Mem (m : machine V Mem) n me, run (renamed g k m) n b' me = run m n b me.
Proof.
  intros o rs fuel prog prog' b b' Ho Ng Ne Nk Ev Eb Lg E Sh Eb'.
  set (all := combine (occurrences (o_locals o) prog) (occurrences (o_locals o) prog')).
  set (gp := flat_map (fun p => match p with (OGlobal n, OGlobal n') => [(n, n')] | _ => [] end) all).
  set (kp := flat_map (fun p => match p with (OMember _ n, OMember _ n') => [(n, n')] | _ => [] end) all).
  assert (Gp : forall n n', In (n, n') gp <-> becomes (o_locals o) prog prog' (OGlobal n) (OGlobal n')).
  { intros n n'. unfold gp. rewrite in_flat_map. split.
    - intros ([a c] & I & J). destruct a, c; cbn in J; try contradiction. destruct J as [[= <- <-]|[]]. exact I.
    - intros I. exists (OGlobal n, OGlobal n'). split; [exact I|now left]. }
  assert (Kp : forall n n', In (n, n') kp <-> exists t, becomes (o_locals o) prog prog' (OMember t n) (OMember t n')).
  { intros n n'. unfold kp. rewrite in_flat_map. split.
    - intros ([a c] & I & J). destruct a as [| |t ?|], c as [| |t' ?|]; cbn in J; try contradiction. destruct J as [[= <- <-]|[]].
      destruct (member_node o rs fuel prog prog' Ho E _ _ _ _ I) as (-> & _). eauto.
    - intros (t & I). exists (OMember t n, OMember t n'). split; [exact I|now left]. }
  destruct (extend gp) as (g & g' & G1 & G2 & G3 & G4).
  { intros n n' m m' I J. apply Gp in I, J. exact (C37_globals_apart o rs fuel prog prog' n n' m m' Ho E I J). }
  destruct (extend kp) as (k & k' & K1 & K2 & K3 & K4).
  { intros n n' m m' I J. apply Kp in I, J. destruct I as (t & I), J as (u & J).
    pose proof (into_left _ _ _ _ _ I) as It. pose proof (into_left _ _ _ _ _ J) as Ju.
    destruct (C37_members_apart o rs fuel prog prog' t u n n' m m' Ho E Ng) as (A & B); try assumption.
    { intros ->. exact (Nk _ It). } { intros ->. exact (Nk _ Ju). }
    split; [exact A|]. intros <-. destruct (Ev _ _ _ It Ju) as (Pt & Pn & Ptu), (Ev _ _ _ Ju It) as (Pu & _ & Put).
    destruct (tm_contains (r_members (o_rules o)) t n) eqn:Q.
    - assert (Pr : preserved_member (o_members o) rs t n) by (rewrite <- (C38_members (o_builtins o)) by easy; now rewrite <- (rules_read o rs Ho)).
      rewrite (C37_preserved_members o rs fuel prog prog' t t n n' Ho E Pt Pn I Pr). now rewrite (C37_preserved_members o rs fuel prog prog' u u n m' Ho E Pu Pn J (Ptu Pr)).
    - assert (Pr : ~ preserved_member (o_members o) rs t n) by (rewrite <- (C38_members (o_builtins o)) by easy; rewrite <- (rules_read o rs Ho), Q; discriminate).
      apply B; try easy. intros X. apply Pr. now apply Put. }
  assert (G5 : forall x, In x (o_builtins o) \/ x = env_name -> (forall n', becomes (o_locals o) prog prog' (OGlobal x) (OGlobal n') -> n' = x) -> g x = x).
  { intros x Hx Px. destruct (in_dec (list_eq_dec Z.eq_dec) x (map fst gp)) as [I|I].
    - apply in_map_iff in I. destruct I as ([n n'] & <- & I). cbn [fst] in *. pose proof (G3 _ _ I) as Q. apply Gp, Px in I. now subst.
    - destruct (in_dec (list_eq_dec Z.eq_dec) x (map snd gp)) as [J|J]; [|now apply G4]. apply in_map_iff in J. destruct J as ([n n'] & <- & J). cbn [snd] in *.
      pose proof (G3 _ _ J) as Q. rewrite Q. apply Gp in J. destruct (list_eq_dec Z.eq_dec n' n) as [X|X]; [now symmetry|]. destruct Hx as [Hx|Hx].
      + destruct (C37_no_new_builtins o rs fuel prog prog' Ho E) as (Y & _). destruct (Y n n' J X Hx).
      + destruct (C37_new_names _ _ _ _ _ _ _ Ho E J) as [Y|(_ & _ & [(? & ? & Y)|Y])]; cbn in Y; [congruence|discriminate Y|contradiction]. }
  exists g, g', k, k'. split; [intros x; repeat split; auto|]. split; [intros n n' I; now apply G3, Gp|]. split; [intros t n n' I; apply K3, Kp; now exists t|]. split.
  - intros x Px Bx Pr. apply G5; [now left|]. intros n' I. exact (C37_preserved_globals o rs fuel prog prog' x n' Ho E Px I Pr).
  - apply (runs_R o prog prog'); try assumption.
    + intros x [<-|I].
      * apply G5; [now right|]. intros n' I. pose proof (into_left _ _ _ _ _ I) as Io. exfalso. revert Io. apply no_global_env.
      * destruct (proj2 (proj2 Ho) x I) as (Px & Bx & Pr). apply G5; [now left|]. intros n' J.
        exact (C37_preserved_globals o rs fuel prog prog' x n' Ho E Px J Pr).
    + apply (renamed_R o rs fuel prog prog' Ho E); [exact Ne|intros n n' I; now apply G3, Gp|intros t n n' I; apply K3, Kp; now exists t].
Qed.

(** If globals and keys are preserved, it does the same without more ado. *)
Theorem C79_safe : forall o rs fuel prog prog' b b', run_opts o rs ->
  (forall n, In (OGlobal n) (occurrences (o_locals o) prog) -> plain n /\ preserved_global (o_builtins o) rs n) ->
  (forall t n, In (OMember t n) (occurrences (o_locals o) prog) -> plain t /\ plain n /\ preserved_member (o_members o) rs t n) ->
  no_env (o_locals o) prog -> map bare prog = names_blk b -> legal false b ->
  rename_tokens o fuel prog = Ok prog' -> shape_blk b' = shape_blk b -> names_blk b' = map bare prog' ->
  forall V Mem (m : machine V Mem) n me, run m n b' me = run m n b me.
Proof.
  intros o rs fuel prog prog' b b' Ho Pg Pm Ne Eb Lg E Sh Eb' V Mem m n me.
  apply alpha_same; [|exact Lg]. apply (R_alpha o prog prog' (fun x => x) (fun x => x) b b' Eb Sh Eb' (fun x _ => eq_refl)).
  apply (renamed_R o rs fuel prog prog' Ho E); [exact Ne| |].
  - intros x n' I. destruct (Pg x (into_left _ _ _ _ _ I)) as (P & Q). exact (C37_preserved_globals o rs fuel prog prog' x n' Ho E P I Q).
  - intros t x n' I. destruct (Pm t x (into_left _ _ _ _ _ I)) as (P & P' & Q). exact (C37_preserved_members o rs fuel prog prog' t t x n' Ho E P P' I Q).
Qed.

(* ------------------------------------------------------------------ *)
(** Concrete cases. *)
Definition alpha_tree : blk := tree (line 1 "local score=1 local function add2(a,score) local r=a+score if 3<r then goto out end r=r+1" ++
  line 2 "::out:: return r end function tick(n,t) total=add2(n,score) if 9<n then return t.lives end end" ++
  line 3 "tick(2) for i=1,2 do local score=i total=total+score end print(total) print(add2(score,1))").
Definition alpha_opts (rs : list name) : opts :=
  {| o_pico8 := true; o_focus_chars := false; o_builtins := [str "print"]; o_members := [str "n"]; o_locals := [];
     o_rules := read_rules [str "print"] [str "n"] rs; o_chars := ident_chars [101; 116; 98]%Z (k_identifier_chars 0) |}.
Definition alpha_out : blk := tree (line 1 "local e=1 local function t(e,t) local e=e+t if 3<e then goto e end e=e+1" ++
  line 2 "::e:: return e end function b(b,a) c=t(b,e) if 9<b then return a.e end end" ++
  line 3 "b(2) for e=1,2 do local e=e c=c+e end print(c) print(t(e,1))").
(** the same with "*" and "*.*" preserved *)
Definition alpha_safe : blk := tree (line 1 "local e=1 local function t(e,t) local e=e+t if 3<e then goto e end e=e+1" ++
  line 2 "::e:: return e end function tick(b,a) total=t(b,e) if 9<b then return a.lives end end" ++
  line 3 "tick(2) for e=1,2 do local e=e total=total+e end print(total) print(t(e,1))").
Definition safe_rules : list name := [str "*"; str "*.*"].

Lemma alpha_run_opts rs : run_opts (alpha_opts rs) rs.
Proof. split; [|split; [reflexivity|intros n []]]. apply C36_alphabets. apply dup_check. reflexivity. Qed.
Fixpoint all_occ (P : occ -> bool) (l : list occ) : bool := match l with [] => true | a :: l => P a && all_occ P l end.
Lemma all_occ_in P l a : all_occ P l = true -> In a l -> P a = true.
Proof. induction l as [|x l IH]; [easy|]. cbn. rewrite andb_true_iff. intros (A & B) [->|I]; auto. Qed.
Lemma plain_check n : zmem 42%Z n || zmem 46%Z n = false -> plain n.
Proof. rewrite orb_false_iff, !zmem_false. easy. Qed.

Example ex_alpha_prog : alpha_tree <> BNil /\ legal false alpha_tree /\ no_env [] (names_blk alpha_tree) /\ no_env_keys [] (names_blk alpha_tree) /\
  map bare (names_blk alpha_tree) = names_blk alpha_tree.
Proof.
  split; [vm_compute; discriminate|]. split; [vm_compute; repeat split; repeat constructor; auto|].
  split; [|split; [|vm_compute; reflexivity]].
  - intros v I. pose proof (all_occ_in (fun a => match a with OLocal n v => negb (zeqb_list n env_name) || ((fst v =? 0) && (snd v =? 0)) | _ => true end) (occurrences [] (names_blk alpha_tree)) _ ltac:(vm_compute; reflexivity) I) as H.
    clear I. destruct v as [a b]. rewrite zeqb_list_refl in H. cbn in H. apply andb_true_iff in H. destruct H as (H1 & H2). apply Nat.eqb_eq in H1, H2. exact (f_equal2 pair H1 H2).
  - intros n I. pose proof (all_occ_in (fun a => match a with OMember t _ => negb (zeqb_list t env_name) | _ => true end) (occurrences [] (names_blk alpha_tree)) _ ltac:(vm_compute; reflexivity) I) as H.
    clear I. vm_compute in H. discriminate H.
Qed.
Example ex_alpha_even : even_keys (alpha_opts []) [] (names_blk alpha_tree) /\ ~ as_globals [].
Proof.
  split; [|intros (r & v & [] & _)]. intros t u n I J.
  assert (X : forall t n, In (OMember t n) (occurrences [] (names_blk alpha_tree)) -> t = [] /\ n = str "lives").
  { clear. intros t n I. pose proof (all_occ_in (fun a => match a with OMember t n => zeqb_list t [] && zeqb_list n (str "lives") | _ => true end) (occurrences [] (names_blk alpha_tree)) _ ltac:(vm_compute; reflexivity) I) as H.
    cbv beta iota in H. clear I. apply andb_true_iff in H. destruct H as (A & B). split; now apply zeqb_list_true. }
  destruct (X _ _ I) as (-> & ->), (X _ _ J) as (-> & _). clear I J X. split; [now apply plain_check|]. split; [now apply plain_check|easy].
Qed.
Example ex_alpha_out : exists prog', rename_tokens (alpha_opts []) 30 (names_blk alpha_tree) = Ok prog' /\
  shape_blk alpha_out = shape_blk alpha_tree /\ names_blk alpha_out = map bare prog'.
Proof. eexists. split; [vm_compute; reflexivity|]. split; vm_compute; reflexivity. Qed.
Example ex_alpha_shows : shows 20 alpha_tree = Some (true, [VNum 7; VNum 3]) /\ shows 20 alpha_out = shows 20 alpha_tree.
Proof. split; vm_compute; reflexivity. Qed.

Example ex_alpha_kept : exists prog', rename_tokens (alpha_opts safe_rules) 30 (names_blk alpha_tree) = Ok prog' /\
  shape_blk alpha_safe = shape_blk alpha_tree /\ names_blk alpha_safe = map bare prog' /\
  (forall n, In (OGlobal n) (occurrences [] (names_blk alpha_tree)) -> plain n /\ preserved_global [str "print"] safe_rules n) /\
  (forall t n, In (OMember t n) (occurrences [] (names_blk alpha_tree)) -> plain t /\ plain n /\ preserved_member [str "n"] safe_rules t n).
Proof.
  eexists. split; [vm_compute; reflexivity|]. split; [vm_compute; reflexivity|]. split; [vm_compute; reflexivity|]. split.
  - intros n I. pose proof (all_occ_in (fun a => match a with OGlobal n => negb (zmem 42%Z n || zmem 46%Z n) && ie_contains (r_globals (o_rules (alpha_opts safe_rules))) n | _ => true end) (occurrences [] (names_blk alpha_tree)) _ ltac:(vm_compute; reflexivity) I) as H.
    cbv beta iota in H. clear I. apply andb_true_iff in H. destruct H as (A & B). apply negb_true_iff, plain_check in A. split; [exact A|]. now apply (C38_globals _ [str "n"]).
  - intros t n I. pose proof (all_occ_in (fun a => match a with OMember t n => negb (zmem 42%Z t || zmem 46%Z t) && negb (zmem 42%Z n || zmem 46%Z n) && tm_contains (r_members (o_rules (alpha_opts safe_rules))) t n | _ => true end) (occurrences [] (names_blk alpha_tree)) _ ltac:(vm_compute; reflexivity) I) as H.
    cbv beta iota in H. clear I. apply andb_true_iff in H. destruct H as (A & B). apply andb_true_iff in A. destruct A as (A & C). apply negb_true_iff, plain_check in A, C. split; [exact A|]. split; [exact C|].
    now apply (C38_members [str "print"]).
Qed.

Print Assumptions C79_tree.
Print Assumptions C79_runs.
Print Assumptions C79_safe.
