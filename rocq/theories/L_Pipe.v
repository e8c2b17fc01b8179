(** Lemmas: the minifier from text to text. *)
From Coq Require Import String List ZArith Bool Lia.
From Verif Require Import M_Base L_Util M_Fold M_Token S_Token L_Token L_TokenSeq L_TokenTotal L_ExprTok M_Expr S_Expr M_Stmt S_Stmt L_Stmt L_StmtRead2 M_Emit L_Emit7 M_Tidy S_Tidy M_Short S_Short L_Short L_Short5 L_Unmin8 M_Lines L_Lines L_Like L_Good.
From Verif Require Import M_Rename S_Rename M_Names L_Like2 P_Rename P_Stmt.
Import ListNotations.
Local Open Scope list_scope.

(** ** Lines *)
Lemma run_climbs m : forall k due l, climbs l (run (k, due, l) m).
Proof.
  induction m as [|[t| |] m IH]; intros k due l; cbn [run step]; [exact I| | |]; [|apply IH..].
  cbn [climbs snd]. split; [destruct due; auto|apply IH].
Qed.
Lemma climbs_first l ts : climbs l ts -> climbs match ts with (_, l') :: _ => l' | [] => 0%Z end ts.
Proof. destruct ts as [|(t & l') ts]; [auto|]. intros (_ & C). split; [now left|exact C]. Qed.
Definition shifted (d : Z) (ts : list ltok) : list ltok := map (fun t => (fst t, (snd t + d)%Z)) ts.
Lemma lines_shift d : forall n lang l s, tok_loop_lines n lang (l + d)%Z s = match tok_loop_lines n lang l s with Ok ts => Ok (shifted d ts) | Err e => Err e end.
Proof.
  induction n as [|n IH]; intros lang l [|ch t]; cbn [tok_loop_lines]; try reflexivity. destruct (tok_round lang ch t) as [a r|]; [|reflexivity].
  replace (l + d + vline_step lang ch t)%Z with (l + vline_step lang ch t + d)%Z by lia. rewrite IH. destruct (tok_loop_lines n lang (l + vline_step lang ch t) r) as [b|]; [|reflexivity].
  cbn [bind]. unfold shifted. now rewrite map_app, !map_map.
Qed.
Lemma shifted_fst d ts : map fst (shifted d ts) = map fst ts.
Proof. unfold shifted. rewrite map_map. now apply map_ext. Qed.

(** ** Words *)
Lemma lexeme_proper lang t : lexeme lang t -> proper t.
Proof. intros (N & E). apply tokens_proper in E; [now inversion E|]. intros [H|[]]. now apply N. Qed.
Lemma lexeme_word lang x : lexeme lang (Tok TIdent x) -> plain_word x.
Proof. apply lexeme_proper. Qed.
Lemma lines_lexemes lang src ts : tokenize_lines lang src = Ok ts -> ~ In TErr (map fst ts) -> Forall (lexeme lang) (map fst ts).
Proof.
  intros E N. apply tokenize_lines_fst in E. now apply (lexemes lang src).
Qed.

(** ** The same program on other lines *)
Lemma same2 (P : list Z -> list Z -> Prop) l : Forall (fun x => P x x) l -> Forall2 P l l.
Proof. induction 1; auto. Qed.
Lemma shift_program lang d b ts : program lang b ts -> Forall (lexeme lang) (map fst ts) -> program lang b (shifted d ts).
Proof.
  intros P F. set (R := fun x y : list Z => x = y /\ plain_word x).
  assert (L : like_blk R b b).
  { destruct (tree_flat R) as (_ & _ & _ & _ & B & _). apply (B b b [] []); [reflexivity|]. rewrite app_nil_r. apply same2. eapply Forall_impl; [|exact (program_names lang b ts P F)].
    intros x H. split; [reflexivity|]. now apply lexeme_word in H. }
  assert (HW : forall x x', R x x' -> plain_word x /\ plain_word x') by (intros x x' (<- & W); auto).
  destruct (like_program R lang HW d b b ts L P) as (ts' & T & P').
  replace (shifted d ts) with ts'; [exact P'|]. clear - T. induction T as [|[t l] [t' l'] ts ts' (E & H) T IH]; [reflexivity|]. cbn [shifted map fst snd] in *. f_equal; [|exact IH].
  subst l'. f_equal. destruct H as [H|(x & x' & -> & -> & <- & _)]; auto.
Qed.

(** ** Printing a program and reading it *)
Lemma glued_of lang : forall items prev, glued_apart lang prev items -> glued_ok lang prev items.
Proof. induction items as [|x l IH]; intros prev G; [exact I|]. destruct G as (G1 & G2). split; [|auto]. destruct prev as [p|]; [|exact I]. intros K. apply need_whitespace_of. auto. Qed.
Lemma items_good lang : forall ts l glued, Forall (lexeme lang) (map fst ts) -> Forall (good_item lang) (items_of l ts glued).
Proof.
  induction ts as [|(t & l') ts IH]; intros l [|g glued] F; cbn [items_of]; try constructor; cbn [map fst] in F; inversion F; subst; [assumption|auto].
Qed.
Definition first_line (ts : list ltok) : Z := match ts with (_, l) :: _ => l | [] => 0%Z end.
Lemma printed_program lang b ts glued : program lang b ts -> Forall (lexeme lang) (map fst ts) -> (exists l, climbs l ts) -> length glued = length ts ->
  glue_ok (first_line ts) ts glued -> glued_apart lang None (items_of (first_line ts) ts glued) ->
  exists out ts', print_lines lang ts glued = Ok out /\ tokenize_lines lang out = Ok ts' /\ map fst ts' = map fst ts /\ program lang b ts'.
Proof.
  intros P F (l0 & C) Len G A. apply climbs_first in C. fold (first_line ts) in C.
  destruct (output_loop_total lang (items_of (first_line ts) ts glued) None false (items_good lang ts _ _ F) I) as (out & E).
  exists out, (shifted (- first_line ts) ts). split; [exact E|]. split; [|split; [apply shifted_fst|now apply shift_program]].
  pose proof (printed_lines lang ts glued None (first_line ts) out Len F C G (glued_of _ _ _ A) E) as K. cbn iota beta in K.
  assert (K0 : lines_from lang (first_line ts) out = Ok ts) by (apply K; unfold first_line; destruct ts as [|[? ?] ?]; auto).
  unfold tokenize_lines. replace 0%Z with (first_line ts + - first_line ts)%Z by lia. rewrite lines_shift. unfold lines_from in K0. now rewrite K0.
Qed.

(** ** Renaming *)
Lemma valid_lexeme lang o focus used x : (lang = Picotron -> focus <> 1%nat) -> o_chars o = ident_chars used (k_identifier_chars focus) -> valid_ident (o_chars o) x -> ~ In x keywords -> lexeme lang (Tok TIdent x).
Proof. intros L E V K. rewrite E in V. split; [discriminate|]. now apply (valid_read lang focus used). Qed.
Lemma F2_both {A B} (R S : A -> B -> Prop) (Q : A -> Prop) l l' : Forall2 R l l' -> Forall Q l -> (forall a b, R a b -> Q a -> S a b) -> Forall2 S l l'.
Proof. intros F. induction F as [|a b l l' H F IH]; intros G K; constructor; inversion G; subst; auto. Qed.
Lemma renamed_program lang o rs fuel focus used prog prog' b b' ts : (lang = Picotron -> focus <> 1%nat) -> o_chars o = ident_chars used (k_identifier_chars focus) ->
  run_opts o rs -> rename_tokens o fuel prog = Ok prog' -> map bare prog = names_blk b -> shape_blk b' = shape_blk b -> names_blk b' = map bare prog' ->
  (forall x, turns o prog prog' x (asc "print") -> x = asc "print") ->
  program lang b ts -> Forall (lexeme lang) (map fst ts) ->
  (lined b -> lined b') /\ (lua b -> lua b') /\ (plain_blk b -> plain_blk b') /\ exists ts', program lang b' ts' /\ Forall (lexeme lang) (map fst ts').
Proof.
  intros Lf Ec Ho E Eb Sh Eb' Np P F.
  set (R := fun x y : list Z => lexeme lang (Tok TIdent x) /\ lexeme lang (Tok TIdent y) /\ (named_print x = false -> named_print y = false)).
  assert (L : like_blk R b b').
  { destruct (tree_flat R) as (_ & _ & _ & _ & B & _). apply (B b b' [] []); [exact Sh|]. rewrite !app_nil_r, <- Eb, Eb', !flats_bare.
    pose proof (program_names lang b ts P F) as N. rewrite <- Eb, flats_bare in N.
    eapply F2_both; [exact (renamed_flat o rs fuel prog prog' Ho E)|exact N|]. intros x y Tn Hx. cbv beta in Hx. split; [exact Hx|]. split.
    - destruct Tn as (a & c & Bc & <- & <-). destruct (C37_new_names o rs fuel prog prog' a c Ho E Bc) as [Q|(V & K & _)]; [now rewrite Q|]. now apply (valid_lexeme lang o focus used).
    - unfold named_print. intros Hp. destruct (zeqb_list y (asc "print")) eqn:Y; [|reflexivity]. apply zeqb_list_true in Y. subst y. rewrite (Np x Tn) in Hp. discriminate Hp. }
  assert (HW : forall x x', R x x' -> plain_word x /\ plain_word x') by (intros x x' (A & B & _); split; eapply lexeme_word; eassumption).
  assert (HP : forall x x', R x x' -> named_print x = false -> named_print x' = false) by (intros x x' (_ & _ & H); exact H).
  split; [|split; [|split]].
  - destruct (like_lined R) as (_ & _ & _ & _ & B & _). intros H. exact (B b b' L _ H).
  - destruct (like_lua R) as (_ & _ & _ & _ & B & _). intros H. exact (B b b' L _ H).
  - destruct (like_plain R HP) as (_ & _ & _ & _ & B & _). intros H. exact (B b b' L H).
  - destruct (like_program R lang HW 0 b b' ts L P) as (ts' & T & P'). exists ts'. split; [exact P'|]. clear - T F.
    induction T as [|[t l] [t' l'] ts ts' (_ & H) T IH]; [constructor|]. cbn [map fst] in *. inversion F; subst. constructor; [|auto]. destruct H as [->|(x & x' & -> & -> & _ & H & _)]; assumption.
Qed.

(** ** Everything *)
Lemma minified_text lang ver o b ts glued : program lang b ts -> Forall (lexeme lang) (map fst ts) -> lined b -> lua b -> plain_blk b ->
  let out := emit (tidy lang ver (switch o b)) in length glued = length out -> glue_ok (first_line out) out glued -> glued_apart lang None (items_of (first_line out) out glued) ->
  exists text ts' b', print_lines lang out glued = Ok text /\ tokenize_lines lang text = Ok ts' /\ ~ In TErr (map fst ts') /\ parse_prog lang ts' = Ok b' /\ core_blk b' = core_blk (switch o b).
Proof.
  intros P F L U N out Len G A. destruct (switch_tidy lang o ver b ts P L U N) as (b' & E & P').
  pose proof (minified_lexemes lang ver o b ts P F) as F'. fold out in P', F'.
  destruct (printed_program lang b' out glued P' F') as (text & ts' & T1 & T2 & T3 & T4); try assumption; [exists 1%Z; apply run_climbs|].
  exists text, ts', b'. split; [exact T1|]. split; [exact T2|]. rewrite T3. split; [now apply (lexemes_ok lang)|]. split; [|exact E]. now apply C71_read.
Qed.
