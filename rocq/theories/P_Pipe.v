(** C84: minifying a program, from text to text. *)
From Coq Require Import String List ZArith Bool Lia.
From Verif Require Import M_Base L_Util M_Fold M_Token S_Token L_TokenSeq M_Expr S_Expr M_Stmt S_Stmt M_Emit S_Emit M_Tidy S_Tidy M_Short S_Short S_Run S_Same S_Toy L_Same L_Unmin8 P_Stmt P_Tidy P_Short P_Same L_Short.
From Verif Require Import M_Lines M_Pipe S_Pipe L_Lines L_Pipe L_Like2 M_Rename S_Rename M_Names S_Alpha P_Rename P_Alpha.
Import ListNotations.
Local Open Scope list_scope.

Lemma may_glue_ok lang : forall ts prev glued, may_glue lang prev ts glued ->
  length glued = length ts /\ forall l, match prev with Some p => snd p = l | None => first_line ts = l end ->
    glue_ok l ts glued /\ glued_apart lang (option_map fst prev) (items_of l ts glued).
Proof.
  induction ts as [|[t l'] ts IH]; intros prev [|g glued] G; try contradiction; [cbn; auto|]. destruct G as (G1 & G2). destruct (IH _ _ G2) as (A & B). split; [cbn; now rewrite A|].
  intros l El. destruct (B l' eq_refl) as (B1 & B2). cbn [glue_ok items_of glued_apart o_tok o_glued option_map fst] in *. repeat split; try assumption.
  - intros ->. destruct prev as [p|]; [destruct (G1 eq_refl) as (Q & _); cbn in Q; congruence|exact El].
  - destruct prev as [p|]; [|exact I]. cbn. intros ->. now destruct (G1 eq_refl).
Qed.
(** Nothing need be glued. *)
Theorem C84_spaces : forall lang ts, may_glue lang None ts (map (fun _ => false) ts).
Proof. intros lang ts. generalize (@None ltok). induction ts as [|t ts IH]; intros prev; cbn; [exact I|]. split; [|apply IH]. destruct prev; [discriminate|exact I]. Qed.

Lemma reads_program lang src b : reads lang src b -> exists ts, program lang b ts /\ Forall (lexeme lang) (map fst ts).
Proof.
  intros (ts & T & N & P). pose proof (lines_lexemes lang src ts T N) as F. exists ts. split; [|exact F]. apply C71_exact; [|exact P]. eapply Forall_impl; [|exact F]. apply lexeme_proper.
Qed.
Lemma text_of lang ver sw b ts glued : program lang b ts -> Forall (lexeme lang) (map fst ts) -> lined b -> lua b -> plain_blk b ->
  may_glue lang None (emit (tidy lang ver (switch sw b))) glued ->
  exists text b', minify_text lang ver sw b glued = Ok text /\ reads lang text b' /\ does_the_same b' b.
Proof.
  intros P F L U N G. destruct (may_glue_ok _ _ _ _ G) as (G1 & G2). destruct (G2 _ eq_refl) as (G3 & G4).
  destruct (minified_text lang ver sw b ts glued P F L U N G1 G3 G4) as (text & ts' & b' & T1 & T2 & T3 & T4 & T5).
  exists text, b'. split; [exact T1|]. split; [exists ts'; auto|]. intros V Mem m Sm n me. apply same_runs; [exact Sm|]. unfold same_program. rewrite T5. apply all_base.
Qed.

(** C84: without renaming.  The text written is read as a program that does the same. *)
Theorem C84_minify : forall lang ver sw src b glued, reads lang src b -> lined b -> lua b -> plain_blk b ->
  may_glue lang None (emit (tidy lang ver (switch sw b))) glued ->
  exists text b', minify_text lang ver sw b glued = Ok text /\ reads lang text b' /\ does_the_same b' b.
Proof. intros lang ver sw src b glued R. destruct (reads_program _ _ _ R) as (ts & P & F). now apply (text_of lang ver sw b ts). Qed.

(** The new names are made of letters the language has, and nothing else gets the name "print". *)
Definition new_letters (lang : language) (o : M_Rename.opts) : Prop := exists focus used, (lang = Picotron -> focus <> 1%nat) /\ o_chars o = ident_chars used (k_identifier_chars focus).
Definition no_new_print (o : M_Rename.opts) (prog prog' : list syn) : Prop :=
  forall a c, becomes (o_locals o) prog prog' a c -> name_of c = asc "print" -> name_of a = asc "print".

Lemma renamed_spells {V Mem} g k (m : machine V Mem) : spells m -> spells (renamed g k m).
Proof. intros H op vs me. cbn. apply H. Qed.
Lemma renamed_text lang ver sw o rs fuel src prog prog' b b' glued : run_opts o rs -> new_letters lang o -> no_new_print o prog prog' ->
  reads lang src b -> lined b -> lua b -> plain_blk b -> map bare prog = names_blk b ->
  rename_tokens o fuel prog = Ok prog' -> shape_blk b' = shape_blk b -> names_blk b' = map bare prog' ->
  may_glue lang None (emit (tidy lang ver (switch sw b'))) glued ->
  exists text b2, minify_text lang ver sw b' glued = Ok text /\ reads lang text b2 /\ does_the_same b2 b'.
Proof.
  intros Ho (focus & used & Lf & Ec) Np R L U N Eb E Sh Eb' G. destruct (reads_program _ _ _ R) as (ts & P & F).
  destruct (renamed_program lang o rs fuel focus used prog prog' b b' ts) as (L' & U' & N' & ts' & P' & F'); try assumption.
  { intros x (a & c & B & <- & Q). exact (Np a c B Q). }
  apply (text_of lang ver sw b' ts'); auto.
Qed.

(** C84: with renaming.  Globals and keys go by their new names: [g] and [k] give their old ones. *)
Theorem C84_rename : forall lang ver sw o rs fuel src prog prog' b b', run_opts o rs -> ~ as_globals rs -> new_letters lang o -> no_new_print o prog prog' ->
  reads lang src b -> lined b -> lua b -> plain_blk b -> legal false b -> map bare prog = names_blk b ->
  no_env (o_locals o) prog -> no_env_keys (o_locals o) prog -> even_keys o rs prog ->
  rename_tokens o fuel prog = Ok prog' -> shape_blk b' = shape_blk b -> names_blk b' = map bare prog' ->
  exists g g' k k' : name -> name,
    (forall x, g (g' x) = x /\ g' (g x) = x /\ k (k' x) = x /\ k' (k x) = x) /\
    (forall n n', becomes (o_locals o) prog prog' (OGlobal n) (OGlobal n') -> g n' = n) /\
    (forall t n n', becomes (o_locals o) prog prog' (OMember t n) (OMember t n') -> k n' = n) /\
    (forall x, plain x -> In x (o_builtins o) -> preserved_global (o_builtins o) rs x -> g x = x) /\
    forall glued, may_glue lang None (emit (tidy lang ver (switch sw b'))) glued ->
      exists text b2, minify_text lang ver sw b' glued = Ok text /\ reads lang text b2 /\
        forall V Mem (m : machine V Mem), spells m -> forall n me, run (renamed g k m) n b2 me = run m n b me.
Proof.
  intros lang ver sw o rs fuel src prog prog' b b' Ho Ag Nl Np R L U N Lg Eb Ne Nk Ev E Sh Eb'.
  destruct (C79_runs o rs fuel prog prog' b b') as (g & g' & k & k' & A1 & A2 & A3 & A4 & A5); try assumption.
  exists g, g', k, k'. do 4 (split; [assumption|]). intros glued G.
  destruct (renamed_text lang ver sw o rs fuel src prog prog' b b' glued) as (text & b2 & T1 & T2 & T3); try assumption.
  exists text, b2. split; [exact T1|]. split; [exact T2|]. intros V Mem m Sm n me. rewrite (T3 _ _ (renamed g k m) (renamed_spells g k m Sm)). apply A5.
Qed.

(** If globals and keys are preserved, it does the same as it is. *)
Theorem C84_safe : forall lang ver sw o rs fuel src prog prog' b b' glued, run_opts o rs -> new_letters lang o -> no_new_print o prog prog' ->
  (forall n, In (OGlobal n) (occurrences (o_locals o) prog) -> plain n /\ preserved_global (o_builtins o) rs n) ->
  (forall t n, In (OMember t n) (occurrences (o_locals o) prog) -> plain t /\ plain n /\ preserved_member (o_members o) rs t n) ->
  reads lang src b -> lined b -> lua b -> plain_blk b -> legal false b -> map bare prog = names_blk b -> no_env (o_locals o) prog ->
  rename_tokens o fuel prog = Ok prog' -> shape_blk b' = shape_blk b -> names_blk b' = map bare prog' ->
  may_glue lang None (emit (tidy lang ver (switch sw b'))) glued ->
  exists text b2, minify_text lang ver sw b' glued = Ok text /\ reads lang text b2 /\ does_the_same b2 b.
Proof.
  intros lang ver sw o rs fuel src prog prog' b b' glued Ho Nl Np Pg Pm R L U N Lg Eb Ne E Sh Eb' G.
  destruct (renamed_text lang ver sw o rs fuel src prog prog' b b' glued) as (text & b2 & T1 & T2 & T3); try assumption.
  exists text, b2. split; [exact T1|]. split; [exact T2|]. intros V Mem m Sm n me. rewrite (T3 _ _ m Sm). now apply (C79_safe o rs fuel prog prog').
Qed.

(* ------------------------------------------------------------------ *)
(** Concrete cases. *)
Definition pipe_source : list Z :=
  asc "local score=1 -- points" ++ [10%Z] ++ asc "local function add2(a,score) local r=a+score if 3<r then goto out end r=r+1" ++ [10%Z] ++
  asc "::out:: return r end function tick(n,t) total=add2(n,score) if 9<n then return t.lives end end" ++ [10%Z] ++
  asc "tick(2) for i=1,2 do local score=i total=total+score end print(total) print(add2(score,1))".
Definition pipe_short : list Z :=
  asc "local e=1local function t(e,t)local e=e+t if(3<e)goto e" ++ [10%Z] ++ asc "e=e+1::e::return e end function b(b,a)c=t(b,e)if(9<b)return a.e" ++ [10%Z] ++
  asc "end b(2)for e=1,2do local e=e c=c+e end?c" ++ [10%Z] ++ asc "?t(e,1)".
Definition pipe_safe : list Z :=
  asc "local e=1local function t(e,t)local e=e+t if 3<e do goto e end e=e+1::e::return e end function tick(b,a)total=t(b,e)if 9<b do return a.lives end end tick(2)for e=1,2do local e=e total=total+e end print(total)print(t(e,1))".
Definition apart (b : blk) (sw : M_Short.opts) : list bool := map (fun _ => false) (emit (tidy Pico8 43 (switch sw b))).

Example ex_pipe_source : reads Pico8 pipe_source alpha_tree /\ lined alpha_tree /\ lua alpha_tree /\ plain_blk alpha_tree.
Proof.
  split; [eexists; split; [vm_compute; reflexivity|split; [vm_compute; intuition discriminate|vm_compute; reflexivity]]|].
  split; [|split]; vm_compute; repeat split; try discriminate; try tauto; intros [].
Qed.
Example ex_pipe_letters rs : new_letters Pico8 (alpha_opts rs).
Proof. exists 0%nat, [101; 116; 98]%Z. split; [discriminate|reflexivity]. Qed.
Lemma print_check l : forallb (fun p : occ * occ => negb (zeqb_list (name_of (snd p)) (asc "print")) || zeqb_list (name_of (fst p)) (asc "print")) l = true ->
  forall a c, In (a, c) l -> name_of c = asc "print" -> name_of a = asc "print".
Proof.
  intros F a c I E. rewrite forallb_forall in F. specialize (F _ I). cbn [fst snd] in F. rewrite E, zeqb_list_refl in F. now apply zeqb_list_true.
Qed.
(** with renaming of all: the text, and what it prints *)
Example ex_pipe_rename : exists prog', rename_tokens (alpha_opts []) 30 (names_blk alpha_tree) = Ok prog' /\ no_new_print (alpha_opts []) (names_blk alpha_tree) prog' /\
  shape_blk alpha_out = shape_blk alpha_tree /\ names_blk alpha_out = map bare prog' /\
  minify_text Pico8 43 to_short alpha_out (apart alpha_out to_short) = Ok pipe_short.
Proof.
  eexists. split; [vm_compute; reflexivity|]. split; [intros a c; apply print_check; vm_compute; reflexivity|]. split; [vm_compute; reflexivity|]. split; [vm_compute; reflexivity|]. vm_compute. reflexivity.
Qed.
(** with the globals and keys kept: the theorem says what the text does *)
Example ex_pipe_safe : exists b2, reads Pico8 pipe_safe b2 /\ does_the_same b2 alpha_tree /\ shows 20 b2 = Some (true, [VNum 7; VNum 3]).
Proof.
  destruct ex_pipe_source as (R & L & U & N). destruct ex_alpha_prog as (_ & Lg & Ne & _ & Eb). destruct ex_alpha_kept as (prog' & E & Sh & Eb' & Pg & Pm).
  assert (Np : no_new_print (alpha_opts safe_rules) (names_blk alpha_tree) prog').
  { vm_compute in E. injection E as <-. intros a c. apply print_check. vm_compute. reflexivity. }
  destruct (C84_safe Pico8 43 to_long (alpha_opts safe_rules) safe_rules 30 pipe_source (names_blk alpha_tree) prog' alpha_tree alpha_safe (apart alpha_safe to_long)) as (text & b2 & T & R2 & D); try assumption.
  - apply alpha_run_opts.
  - apply ex_pipe_letters.
  - apply C84_spaces.
  - assert (Q : minify_text Pico8 43 to_long alpha_safe (apart alpha_safe to_long) = Ok pipe_safe) by (vm_compute; reflexivity). rewrite Q in T. injection T as <-.
    exists b2. split; [exact R2|]. split; [exact D|]. rewrite <- (proj1 ex_alpha_shows). exact (f_equal report (D _ _ toy toy_spells 20%nat new_world)).
Qed.

Print Assumptions C84_spaces.
Print Assumptions C84_minify.
Print Assumptions C84_rename.
Print Assumptions C84_safe.
