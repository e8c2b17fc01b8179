(** Laying out a program: every token is kept apart from the next one. *)
From Coq Require Import String List ZArith Lia Bool.
From Verif Require Import M_Base L_Util M_Fold M_Token S_Str S_Token L_Token L_TokenSeq M_Expr S_Expr L_Expr L_ExprTok M_Stmt S_Stmt L_Stmt L_StmtEq M_Emit L_Emit L_Emit7 M_Unmin S_Unmin L_Unmin L_Unmin2.
Import ListNotations.
Open Scope Z_scope.

Section Layout.
Context (lang : language) (ind : list Z).
Hypothesis Ind : wspace ind.
Notation runs := (runs lang).
Notation enters := (enters lang).
Notation lexeme := (lexeme lang).

Definition words : list string := ["("; ")"; "["; "]"; "{"; "}"; "."; ":"; ","; ";"; "="; "..."; "function"; "end"; "if"; "then"; "else"; "elseif"; "while"; "do"; "repeat"; "until"; "for"; "in"; "break"; "return"; "local"; "goto"; "::"; "?"; "<"; ">"]%string.
Lemma lex_word s : In s words -> lexeme (op_tok (asc s)).
Proof. intros I. each I; (split; [discriminate|destruct lang; vm_compute; reflexivity]). Qed.
Ltac listed := cbn; tauto.
Lemma one s t u : lexeme t -> enters s t -> runs s [ETok t u] (Tight t u).
Proof. intros L E. apply r_tok; [exact L|exact E|apply r_nil]. Qed.
Lemma one_word s w : In w words -> enters s (op_tok (asc w)) -> runs s (ew w) (Tight (op_tok (asc w)) false).
Proof. intros I. apply one. now apply lex_word. Qed.
(** Words behind which and before which a space is put *)
Definition airy : list string := [","; ";"; "="; "if"; "elseif"; "while"; "until"; "for"; "in"; "return"; "local"; "goto"; "<"]%string.
Lemma airy_enters w t : In w airy -> starter t -> enters (Tight (op_tok (asc w)) false) t.
Proof. intros I S. apply apart_enters; [|now apply starter_suffix]. each I; reflexivity. Qed.
Lemma ident_starter x : plain_word x -> starter (Tok TIdent x). Proof. now left. Qed.
Lemma fun_ident x : plain_word x -> enters (Tight (op_tok (asc "function")) false) (Tok TIdent x).
Proof.
  intros P G. exfalso. unfold glued in G. change (tight_prefix (op_tok (asc "function"))) with false in G. change (match op_tok (asc "function") with Tok TPunct _ => true | _ => false end) with false in G. rewrite (starter_suffix (Tok TIdent x)) in G by now apply ident_starter.
  rewrite (word_unlisted (Tok TIdent x) ["("; "["]%string) in G by easy. discriminate G.
Qed.
Lemma fun_open : enters (Tight (op_tok (asc "function")) false) (op_tok (asc "(")).
Proof. intros _. apply (pass_word lang TKeyword (asc "function")); [apply (lex_word "function"); listed|auto|destruct lang; reflexivity]. Qed.
(** Operators *)
Lemma op_apart op k : level_of op k -> apart (op_tok op) false = true /\ tight_suffix (op_tok op) = false /\ no_paren (op_tok op) = true.
Proof.
  intros (ops & s & N & I & -> & _). apply nth_error_In in N.
  assert (F : forallb (fun l => forallb (fun s => apart (op_tok (asc s)) false && negb (tight_suffix (op_tok (asc s))) && no_paren (op_tok (asc s))) l) levels = true) by reflexivity.
  rewrite forallb_forall in F. specialize (F _ N). rewrite forallb_forall in F. specialize (F _ I). apply andb_prop in F. destruct F as (F & C). apply andb_prop in F. destruct F as (A & B). now apply negb_true_iff in B.
Qed.
Lemma ends_eq op l : (exists o, op = o ++ asc "=") -> forallb (fun s => negb (last (asc s) 0 =? 61)) l = true -> existsb (zeqb_list op) (map asc l) = false.
Proof.
  intros (o & ->) F. destruct (existsb (zeqb_list (o ++ asc "=")) (map asc l)) eqn:E; [|reflexivity]. exfalso. apply existsb_in in E. apply in_map_iff in E. destruct E as (s & E & I). rewrite forallb_forall in F. specialize (F s I). rewrite E in F. change (asc "=") with [61] in F. rewrite last_last in F. discriminate F.
Qed.
Lemma assign_apart op : op_ok lang op -> apart (Tok TPunct op) false = true /\ tight_suffix (Tok TPunct op) = false /\ no_paren (Tok TPunct op) = true.
Proof.
  intros (E & _). unfold apart, tight_prefix, tight_suffix, no_paren. cbn [tok_value]. rewrite !(ends_eq op) by (exact E || reflexivity). now repeat split.
Qed.
Lemma close_after w c : In w [","; ";"; ">"]%string -> In c [125; 44] -> passes lang (op_tok (asc w)) c.
Proof. intros I J. each I; each J; apply passes_round; intros r; destruct lang; reflexivity. Qed.

(** * Lists of names *)
Definition opens_to (s : left) : Prop := forall t, lexeme t -> starter t -> enters s t.
Lemma airy_opens w : In w airy -> opens_to (Tight (op_tok (asc w)) false).
Proof. intros I t _ S. now apply airy_enters. Qed.
Lemma paren_opens w : In w ["("; "{"; "?"]%string -> opens_to (Tight (op_tok (asc w)) false).
Proof. intros I t _ _. now apply open_enters. Qed.
Definition ended (evs : list ev) (s : left) : Prop := exists t, runs s evs (Tight t false) /\ lexeme t /\ ender t.
Lemma ident_ended x s : plain_word x -> lexeme (Tok TIdent x) -> enters s (Tok TIdent x) -> ended (en x) s.
Proof. intros P L E. exists (Tok TIdent x). split; [now apply one|]. split; [exact L|]. left. split; [exact P|discriminate]. Qed.
Lemma comma_ended evs s l : ended evs s -> ended l (Tight (op_tok (asc ",")) false) -> ended (evs ++ ew "," ++ l) s.
Proof.
  intros (t & R & L & E) (t' & R' & H). exists t'. split; [|exact H]. eapply runs_app; [exact R|]. eapply runs_app; [|exact R']. apply one_word; [listed|]. apply suffix_enters; [exact L|exact E|listed].
Qed.
Lemma params_ended ps : Forall param_ok ps -> Forall lexeme (toks (m_params ps)) -> ps <> [] -> forall s, opens_to s -> ended (e_params ps) s.
Proof.
  assert (A : forall p s, param_ok p -> Forall lexeme (toks (m_param p)) -> opens_to s -> ended (e_param p) s).
  { intros [x|] s P L O; cbn in L; inversion L; subst; [apply ident_ended; auto; apply O; auto; now apply ident_starter|]. exists (op_tok (asc "...")). split; [apply one_word; [listed|]; apply O; [assumption|right; listed]|]. split; [assumption|right; listed]. }
  induction 1 as [|p ps P Ps IH]; [easy|]. intros L _ s O. destruct ps as [|q ps]; [now apply A|]. cbn [m_params] in L. rewrite !toks_app, !Forall_app in L. destruct L as (L1 & _ & L2).
  change (e_params (p :: q :: ps)) with (e_param p ++ ew "," ++ e_params (q :: ps)). apply comma_ended; [now apply A|]. apply IH; [exact L2|easy|apply airy_opens; listed].
Qed.
Lemma params_closed ps s : Forall param_ok ps -> Forall lexeme (toks (m_params ps)) -> enters s (op_tok (asc "(")) -> runs s (ew "(" ++ e_params ps ++ ew ")") (Tight (op_tok (asc ")")) false).
Proof.
  intros P L E. eapply runs_app; [apply one_word; [listed|exact E]|]. destruct ps as [|p ps]; [apply one_word; [listed|apply open_enters; listed]|].
  destruct (params_ended (p :: ps) P L ltac:(easy) (Tight (op_tok (asc "(")) false)) as (t & R & Lt & Et); [apply paren_opens; listed|]. eapply runs_app; [exact R|]. apply one_word; [listed|]. apply suffix_enters; [exact Lt|exact Et|listed].
Qed.
Lemma names_ended xs : Forall plain_word xs -> Forall lexeme (toks (m_names xs)) -> xs <> [] -> forall s, opens_to s -> ended (e_names xs) s.
Proof.
  induction 1 as [|p ps P Ps IH]; [easy|]. intros L _ s O. destruct ps as [|q ps]; [cbn in L; inversion L; subst; apply ident_ended; auto; apply O; auto; now apply ident_starter|].
  cbn [m_names] in L. rewrite !toks_app, !Forall_app in L. destruct L as (L1 & _ & L2). cbn in L1. inversion L1; subst.
  change (e_names (p :: q :: ps)) with (en p ++ ew "," ++ e_names (q :: ps)). apply comma_ended; [apply ident_ended; auto; apply O; auto; now apply ident_starter|]. apply IH; [exact L2|easy|apply airy_opens; listed].
Qed.
Definition endlike (t : tok) : Prop := lexeme t /\ (ender t \/ t = op_tok (asc ">")).
Lemma endlike_comma t : endlike t -> enters (Tight t false) (op_tok (asc ",")).
Proof. intros (L & [E| ->]); [apply suffix_enters; [exact L|exact E|listed]|]. intros _. apply close_after; listed. Qed.
Lemma endlike_eq t : endlike t -> enters (Tight t false) (op_tok (asc "=")).
Proof. intros (L & [E| ->]); [now apply ender_enters|]. now apply apart_enters. Qed.
Lemma attr_plain a : a = asc "const" \/ a = asc "close" -> plain_word a.
Proof. intros [->| ->]; (split; [|reflexivity]); vm_compute; intuition discriminate. Qed.
Lemma var_runs x s : attr_ok lang x -> Forall lexeme (toks (m_var x)) -> opens_to s -> exists t, runs s (e_var x) (Tight t false) /\ endlike t.
Proof.
  destruct x as (x, [a|]); unfold attr_ok, m_var, e_var; cbn [fst snd]; intros (P & A) L O.
  - rewrite !toks_app, !Forall_app in L. destruct L as (L1 & _ & L2 & _). cbn in L1, L2. inversion L1; inversion L2; subst. destruct A as (A & _). apply attr_plain in A. exists (op_tok (asc ">")).
    split; [|split; [apply lex_word; listed|now right]].
    eapply runs_app; [apply one; [assumption|apply O; [assumption|now apply ident_starter]]|]. eapply runs_app; [apply one_word; [listed|apply ender_enters; [left; split; [exact P|discriminate]|reflexivity|reflexivity]]|].
    eapply runs_app; [apply one; [assumption|apply airy_enters; [listed|now apply ident_starter]]|]. apply one_word; [listed|]. apply ender_enters; [left; split; [exact A|discriminate]|reflexivity|reflexivity].
  - cbn in L. inversion L; subst. destruct (ident_ended x s) as (t & R & Lt & Et); auto; [apply O; auto; now apply ident_starter|]. exists t. split; [exact R|]. split; [exact Lt|now left].
Qed.
Lemma vars_runs xs : Forall (attr_ok lang) xs -> Forall lexeme (toks (m_vars xs)) -> xs <> [] -> forall s, opens_to s -> exists t, runs s (e_vars xs) (Tight t false) /\ endlike t.
Proof.
  induction 1 as [|p ps P Ps IH]; [easy|]. intros L _ s O. destruct ps as [|q ps]; [now apply var_runs|].
  cbn [m_vars] in L. rewrite !toks_app, !Forall_app in L. destruct L as (L1 & _ & L2). destruct (var_runs p s P L1 O) as (t & R & E). destruct (IH L2 ltac:(easy) (Tight (op_tok (asc ",")) false)) as (t' & R' & E'); [apply airy_opens; listed|].
  exists t'. split; [|exact E']. change (e_vars (p :: q :: ps)) with (e_var p ++ ew "," ++ e_vars (q :: ps)). eapply runs_app; [exact R|]. eapply runs_app; [|exact R']. apply one_word; [listed|]. now apply endlike_comma.
Qed.
Lemma ident_callend x : plain_word x -> callend (Tok TIdent x). Proof. intros P. left. exists x. auto. Qed.
Lemma dotted_runs path : Forall plain_word path -> Forall lexeme (toks (m_dotted path)) -> forall x, plain_word x -> lexeme (Tok TIdent x) -> exists y, plain_word y /\ lexeme (Tok TIdent y) /\ runs (Tight (Tok TIdent x) false) (e_dotted path) (Tight (Tok TIdent y) false).
Proof.
  induction 1 as [|p path P Ps IH]; intros L x Px Lx; [exists x; split; [exact Px|split; [exact Lx|apply r_nil]]|]. cbn [m_dotted] in L. rewrite !toks_app, !Forall_app in L. destruct L as (_ & L1 & L2). cbn in L1. inversion L1; subst.
  destruct (IH L2 p P) as (y & Py & Ly & R); [assumption|]. exists y. split; [exact Py|]. split; [exact Ly|]. cbn [e_dotted]. eapply runs_app; [apply one_word; [listed|apply member_enters; [exact Lx|now apply ident_callend]]|]. eapply runs_app; [apply one; [assumption|apply ident_enters; [listed|assumption]]|exact R].
Qed.
(** * Blocks *)
Lemma newline_runs s : runs s newline Loose.
Proof. apply r_gap; [now repeat constructor|now right|apply r_nil]. Qed.
Lemma indent_space n : wspace (concat (repeat ind n)).
Proof. induction n; cbn; [constructor|]. apply Forall_app. now split. Qed.
Lemma indent_runs n : runs Loose (indented ind n) Loose.
Proof. apply r_gap; [apply indent_space|now left|apply r_nil]. Qed.
Lemma enclosed_runs n l s : runs Loose l Loose -> runs s (enclosed ind n [] l) Loose.
Proof. intros R. unfold enclosed. cbn [app]. eapply runs_app; [apply newline_runs|]. eapply runs_app; [exact R|apply indent_runs]. Qed.
Lemma body_runs n l s w : runs Loose l Loose -> In w words -> runs s (enclosed ind n [] l ++ ew w) (Tight (op_tok (asc w)) false).
Proof. intros R I. eapply runs_app; [now apply enclosed_runs|]. now apply one_word. Qed.
Lemma short_runs n l t w : runs Loose l Loose -> In w ["then"; "do"]%string -> runs (Tight t false) (enclosed ind n [EWord (32 :: asc w)] l) Loose.
Proof.
  intros R I. unfold enclosed. change ([EWord (32 :: asc w)] ++ newline ++ l ++ indented ind n) with (EWord (32 :: asc w) :: newline ++ l ++ indented ind n). apply r_word; [apply lex_word; cbn in *; tauto|right; split; [easy|now eexists]|]. eapply runs_app; [apply newline_runs|]. eapply runs_app; [exact R|apply indent_runs].
Qed.
Lemma end_runs : runs Loose e_end Worded.
Proof. apply r_word; [apply lex_word; listed|now left|apply r_nil]. Qed.
End Layout.
