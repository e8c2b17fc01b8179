(** Lemmas: the clean-up of tokens and the change of shorthands write no tokens but the program's and some fixed words. *)
From Coq Require Import String List ZArith Bool Lia.
From Verif Require Import M_Base L_Util M_Fold M_Token S_Token M_Expr S_Expr M_Stmt S_Stmt L_Stmt M_Emit L_Emit7 M_Tidy M_Short L_Short L_Unmin L_Unmin3 M_Rename M_Names L_Like2.
Import ListNotations.
Local Open Scope list_scope.

Section Good.
Context (Pt : tok -> Prop) (Hw : forall s, In s words -> Pt (op_tok (asc s))).
Definition G (m : list item) : Prop := Forall Pt (toks m).
Lemma g_app a b : G (a ++ b) <-> G a /\ G b.
Proof. unfold G. rewrite toks_app. apply Forall_app. Qed.
Lemma g_nil : G [] <-> True. Proof. split; [auto|constructor]. Qed.
Lemma g_tok t : G [T t] <-> Pt t. Proof. split; [intros F; now inversion F|intros H; repeat constructor; exact H]. Qed.
Lemma g_cons t m : G (T t :: m) <-> Pt t /\ G m. Proof. rewrite (g_app [T t] m), g_tok. tauto. Qed.
Lemma g_word s : In s words -> (G (tw s) <-> True). Proof. intros I. unfold tw. rewrite g_tok. split; [auto|]. intros _. now apply Hw. Qed.
Lemma g_short n m : G (short n m) <-> G m. Proof. unfold G. now rewrite toks_short. Qed.
Lemma g_exs e es : G (m_exs (XCons e es)) <-> G (m_ex e) /\ G (m_exs es).
Proof. destruct es; cbn [m_exs]; [rewrite g_nil; tauto|]. rewrite !g_app, g_word by (cbn; tauto). tauto. Qed.
Lemma g_ifs w i : In w ["if"; "elseif"]%string -> (G (m_ifs w i) <-> G (m_ifs "if" i)).
Proof. intros [<-|[<-|[]]]; [tauto|]. destruct i; cbn [m_ifs]; rewrite ?g_short, !g_app, !g_word by (cbn; tauto); tauto. Qed.
Ltac wd := rewrite !g_word in * by (cbn; tauto).
Ltac spread := cbn [m_ex m_its m_st m_blk m_ifs m_els] in *; repeat first [rewrite g_short in *|rewrite g_exs in *|rewrite g_app in *|rewrite g_cons in *|rewrite g_tok in *|rewrite g_nil in *|progress wd].
Lemma g_strip e : G (m_ex e) -> G (m_ex (strip e)).
Proof. induction e using ex_ind; cbn [strip]; auto. intros H. apply IHe. spread. tauto. Qed.
Lemma g_fill b : G (m_blk b) -> G (m_blk (fill b)).
Proof. destruct b; cbn [fill]; auto. intros _. spread. tauto. Qed.
Lemma g_local xs es : G (m_st (SLocal xs es)) <-> G (m_vars xs) /\ G (m_exs es).
Proof. destruct es; spread; [cbn [m_exs]; rewrite ?g_nil; tauto|tauto]. Qed.
Lemma g_for x a z step b : G (m_st (SFor x a z step b)) <-> G (tn x) /\ G (m_ex a) /\ G (m_ex z) /\ G (m_exs step) /\ G (m_blk b).
Proof. destruct step; spread; [cbn [m_exs]; rewrite ?g_nil; tauto|tauto]. Qed.
Lemma g_call f s args : G (m_ex (XCall f s args)) <-> G (m_ex f) /\ G (m_exs args).
Proof. destruct s; spread; tauto. Qed.
Lemma g_meth f k s args : G (m_ex (XMeth f k s args)) <-> G (m_ex f) /\ G (tn k) /\ G (m_exs args).
Proof. destruct s; spread; tauto. Qed.
Lemma g_ishort n c b e : G (m_ifs "if" (IShort n c b e)) <-> G (m_ex c) /\ G (m_blk b) /\ match e with EElse b' => G (m_blk b') | _ => True end.
Proof. destruct e; spread; tauto. Qed.
Lemma g_ilong w c b e : G (m_ifs "if" (ILong w c b e)) <-> Pt (op_tok w) /\ G (m_ex c) /\ G (m_blk b) /\ G (m_els e).
Proof. spread; tauto. Qed.
Lemma g_else b : G (m_els (EElse b)) <-> G (m_blk b).
Proof. spread; tauto. Qed.
Lemma g_elif i : G (m_els (EElif i)) <-> G (m_ifs "if" i).
Proof. cbn [m_els]. apply g_ifs. cbn. tauto. Qed.
Lemma g_none : G (m_els ENone) <-> True.
Proof. spread. tauto. Qed.
Lemma g_if i : G (m_st (SIf i)) <-> G (m_ifs "if" i). Proof. reflexivity. Qed.
Lemma g_blk s b : G (m_blk (BCons s b)) <-> G (m_st s) /\ G (m_blk b). Proof. cbn [m_blk]. apply g_app. Qed.
Ltac sp := repeat first [rewrite g_local in *|rewrite g_for in *|rewrite g_call in *|rewrite g_meth in *|rewrite g_ishort in *|rewrite g_ilong in *|rewrite g_else in *|rewrite g_elif in *|rewrite g_none in *|rewrite g_if in *|rewrite g_blk in *].
Ltac spr := sp; cbn [m_ex m_its m_st] in *; repeat first [rewrite g_short in *|rewrite g_exs in *|rewrite g_app in *|rewrite g_cons in *|rewrite g_tok in *|rewrite g_nil in *|progress wd].

Definition no_elif (e : els) : Prop := match e with EElif _ => False | _ => True end.
Context (lang : language).
Ltac wfs := cbn [wf wf_exs wf_its wf_st wf_blk wf_ifs wf_els] in *; fold (wf lang) (wf_exs lang) (wf_its lang) (wf_st lang) (wf_blk lang) (wf_ifs lang) (wf_els lang) in *.
Ltac parts := repeat match goal with H : _ /\ _ |- _ => destruct H end.
Lemma sw_good o :
  (forall e c, wf lang e -> G (m_ex e) -> G (m_ex (sw_ex o c e))) /\ (forall e c, wf_exs lang e -> G (m_exs e) -> G (m_exs (sw_exs o c e))) /\ (forall e c, wf_its lang e -> G (m_its e) -> G (m_its (sw_its o c e))) /\
  (forall e c, wf_st lang e -> G (m_st e) -> G (m_st (sw_st o c e))) /\ (forall e c, wf_blk lang e -> G (m_blk e) -> G (m_blk (sw_blk o c e))) /\
  (forall e c elif, wf_ifs lang e -> G (m_ifs "if" e) -> G (m_ifs "if" (sw_ifs o c elif e))) /\
  (forall e, (forall c, wf_els lang e -> G (m_els e) -> G (m_els (sw_els o c e))) /\ match e with EElse b => forall c, wf_blk lang b -> G (m_blk b) -> G (m_blk (sw_blk o c b)) | _ => True end).
Proof.
  apply prog_all; intros; rewrite ?sw_cons; wfs; parts; cbn [sw_ex sw_exs sw_its sw_st sw_ifs sw_els] in *; try (spr; parts; repeat split; eauto; fail).
  all: try (match goal with |- context [if ?q then _ else _] => destruct q end; spr; parts; repeat split; try apply g_fill; try apply g_strip; eauto; fail).
  - cbn [m_st] in *. destruct e as [| | | | | | | | |f s args| |]; try (cbn [m_st]; apply H; assumption). destruct f; try (cbn [m_st]; apply H; assumption).
    assert (A : G (m_exs (sw_exs o c args))) by (specialize (H c ltac:(assumption) ltac:(assumption)); cbn [sw_ex] in H; rewrite g_call in H; tauto).
    match goal with |- context [if ?q then _ else _] => destruct q end; spr; parts; repeat split; try assumption. destruct s; spr; auto.
  - match goal with |- context [if ?q then _ else _] => destruct q end; spr; parts; repeat split; try apply g_fill; try apply g_strip; eauto. destruct e; spr; auto. wfs. apply g_fill. auto.
  - spr. parts. destruct e; [| |contradiction]; match goal with |- context [if ?q then _ else _] => destruct q end; spr; repeat split; try apply g_strip; auto; try (apply Hw; cbn; tauto).
    all: wfs; auto.
  - split; [|assumption]. intros c. spr. auto.
  - split; [|exact I]. intros c. spr. auto.
Qed.
Lemma switch_good o b : wf_blk lang b -> G (m_blk b) -> G (m_blk (switch o b)).
Proof. destruct (sw_good o) as (_ & _ & _ & _ & H & _). apply H. Qed.

(** Names are written as identifiers. *)
Context (Q : list Z -> Prop) (HQ : forall x, Pt (Tok TIdent x) -> Q x).
Ltac fl := rewrite ?flat_map_app, ?app_nil_r, ?Forall_app in *.
Lemma q_tn x : G (tn x) -> Q x.
Proof. unfold tn. rewrite g_tok. apply HQ. Qed.
Lemma q_params ps : G (m_params ps) -> Forall Q (M_Names.params ps).
Proof.
  induction ps as [|p ps IH]; [constructor|]. destruct ps as [|p' ps]; [destruct p; cbn [m_params m_param M_Names.params flat_map app]; intros H; [constructor; [now apply q_tn|constructor]|constructor]|].
  change (m_params (p :: p' :: ps)) with (m_param p ++ tw "," ++ m_params (p' :: ps)). rewrite !g_app. intros (A & _ & B).
  change (M_Names.params (p :: p' :: ps)) with ((match p with Some x => [x] | None => [] end) ++ M_Names.params (p' :: ps)). apply Forall_app. split; [|auto]. destruct p; constructor; [now apply q_tn|constructor].
Qed.
Lemma q_vars xs : G (m_vars xs) -> Forall Q (map fst xs).
Proof.
  assert (V : forall x, G (m_var x) -> Q (fst x)) by (intros [x [a|]]; unfold m_var; cbn [fst snd]; rewrite ?g_app; intros H; apply q_tn; tauto).
  induction xs as [|x xs IH]; [constructor|]. destruct xs as [|y xs]; [intros H; constructor; [now apply V|constructor]|].
  change (m_vars (x :: y :: xs)) with (m_var x ++ tw "," ++ m_vars (y :: xs)). rewrite !g_app. intros (A & _ & B). constructor; [now apply V|auto].
Qed.
Lemma q_names xs : G (m_names xs) -> Forall Q xs.
Proof.
  induction xs as [|x xs IH]; [constructor|]. destruct xs as [|y xs]; [intros H; constructor; [now apply q_tn|constructor]|].
  change (m_names (x :: y :: xs)) with (tn x ++ tw "," ++ m_names (y :: xs)). rewrite !g_app. intros (A & _ & B). constructor; [now apply q_tn|auto].
Qed.
Lemma q_dotted xs : G (m_dotted xs) -> Forall Q xs.
Proof. induction xs as [|x xs IH]; [constructor|]. cbn [m_dotted]. rewrite !g_app. intros (_ & A & B). constructor; [now apply q_tn|auto]. Qed.
Lemma names_good :
  (forall e, wf lang e -> G (m_ex e) -> Forall Q (flats (names_ex e))) /\ (forall e, wf_exs lang e -> G (m_exs e) -> Forall Q (flats (names_exs e))) /\ (forall e, wf_its lang e -> G (m_its e) -> Forall Q (flats (names_its e))) /\
  (forall e, wf_st lang e -> G (m_st e) -> Forall Q (flats (names_st e))) /\ (forall e, wf_blk lang e -> G (m_blk e) -> Forall Q (flats (names_blk e))) /\
  (forall e, wf_ifs lang e -> G (m_ifs "if" e) -> Forall Q (flats (names_ifs e))) /\
  (forall e, (wf_els lang e -> G (m_els e) -> Forall Q (flats (names_els e))) /\ match e with EElse b => wf_blk lang b -> G (m_blk b) -> Forall Q (flats (names_blk b)) | _ => True end).
Proof.
  apply prog_all; intros; wfs; parts; cbn [names_ex names_exs names_its names_st names_blk names_ifs names_els] in *; spr; parts; fl; cbn [flat_map flat app member] in *; fl; rewrite ?flats_members in *.
  all: try (repeat first [apply conj|apply Forall_cons|apply Forall_nil]; auto using q_tn, q_params, q_vars, q_names, q_dotted; fail).
  all: try (constructor; [now apply q_tn|]; rewrite ?Forall_app; repeat split; auto using q_params; fail).
  - constructor; [now apply q_tn|]. rewrite ?Forall_app. cbn [flat_map flat app]. rewrite ?app_nil_r, ?Forall_app. repeat split; auto using q_params, q_dotted. destruct meth; [|constructor]. constructor; [|constructor]. apply q_tn. rewrite g_app in *. tauto.
  - repeat split; auto. destruct e as [|b'|]; [constructor| |contradiction]. cbn [names_els flat_map flat app]. rewrite app_nil_r. auto.
Qed.
Lemma good_names b : wf_blk lang b -> G (m_blk b) -> Forall Q (flats (names_blk b)).
Proof. destruct names_good as (_ & _ & _ & _ & H & _). apply H. Qed.

Context (ver : Z) (Hop : forall op, Pt (op_tok op) -> Pt (op_tok (tidy_op lang ver op))) (Heq : forall op, Pt (Tok TPunct op) -> Pt (Tok TPunct (tidy_eq lang op)))
  (Hthen : forall w, Pt (op_tok w) -> Pt (op_tok (tidy_then lang ver w))).
Lemma sep_good sep i : G (m_sep sep) -> G (m_sep (tidy_sep sep i)).
Proof.
  assert (C : Pt (Tok TPunct (asc ","))) by (apply (Hw ","); cbn; tauto). destruct sep as [v|], i; cbn [tidy_sep m_sep]; try (intros _; constructor; fail); destruct (zeqb_list v (asc ";")); rewrite ?g_tok; auto.
Qed.
Lemma tidy_good :
  (forall e, G (m_ex e) -> G (m_ex (tidy_ex lang ver e))) /\ (forall e, G (m_exs e) -> G (m_exs (tidy_exs lang ver e))) /\ (forall e, G (m_its e) -> G (m_its (tidy_its lang ver e))) /\
  (forall e k, G (m_st e) -> G (m_st (tidy_st lang ver k e))) /\ (forall e keep k, G (m_blk e) -> G (m_blk (tidy_blk lang ver keep k e))) /\
  (forall e k, G (m_ifs "if" e) -> G (m_ifs "if" (tidy_ifs lang ver k e))) /\
  (forall e, (forall s k, G (m_els e) -> G (m_els (tidy_els lang ver s k e))) /\ match e with EElse b => forall keep k, G (m_blk b) -> G (m_blk (tidy_blk lang ver keep k b)) | _ => True end).
Proof.
  apply prog_all; intros; parts; cbn [tidy_ex tidy_exs tidy_its tidy_st tidy_ifs tidy_els] in *; try (spr; parts; repeat split; auto using sep_good; fail).
  - cbn [tidy_blk]. rewrite g_blk in *. parts. destruct s; try (match goal with |- context [if ?q then _ else _] => destruct q end); rewrite ?g_blk; repeat split; auto.
  - spr. parts. repeat split; auto. destruct e; cbn [tidy_els] in *; auto.
  - split; [|assumption]. intros s k. spr. destruct s; auto.
  - split; [|exact I]. intros s k. spr. auto.
Qed.
Lemma tidied_good b : G (m_blk b) -> G (m_blk (tidy lang ver b)).
Proof. destruct tidy_good as (_ & _ & _ & _ & H & _). apply H. Qed.
End Good.

(** With lexemes *)
Lemma op_lexeme lang ver op : lexeme lang (op_tok op) -> lexeme lang (op_tok (tidy_op lang ver op)).
Proof.
  intros H. unfold tidy_op. destruct (zeqb_list op (asc "!=")); [split; [discriminate|destruct lang; vm_compute; reflexivity]|].
  destruct (zeqb_list op (asc "^^") && _); [split; [discriminate|destruct lang; vm_compute; reflexivity]|].
  destruct (zeqb_list op (asc "//") && _); [split; [discriminate|destruct lang; vm_compute; reflexivity]|exact H].
Qed.
Lemma eq_lexeme lang op : lexeme lang (Tok TPunct op) -> lexeme lang (Tok TPunct (tidy_eq lang op)).
Proof. intros H. unfold tidy_eq. destruct (_ && _); [split; [discriminate|destruct lang; vm_compute; reflexivity]|exact H]. Qed.
Lemma then_lexeme lang ver op : lexeme lang (op_tok op) -> lexeme lang (op_tok (tidy_then lang ver op)).
Proof. intros H. unfold tidy_then. destruct (_ && _); [split; [discriminate|destruct lang; vm_compute; reflexivity]|exact H]. Qed.

(** The tokens the minifier writes are lexemes if the program's are. *)
Lemma minified_lexemes lang ver o b ts : program lang b ts -> Forall (lexeme lang) (map fst ts) -> Forall (lexeme lang) (map fst (emit (tidy lang ver (switch o b)))).
Proof.
  intros P F. unfold emit. rewrite toks_run. apply tidied_good; [apply lex_word|apply op_lexeme|apply eq_lexeme|apply then_lexeme|].
  apply (switch_good (lexeme lang) (lex_word lang) lang); [exact (proj1 P)|]. unfold G. destruct (all_toks lang) as (_ & _ & _ & _ & B & _). rewrite <- (B _ _ _ _ (proj2 P)). exact F.
Qed.
(** The names of a program are identifiers. *)
Lemma program_names lang b ts : program lang b ts -> Forall (lexeme lang) (map fst ts) -> Forall (fun x => lexeme lang (Tok TIdent x)) (flats (names_blk b)).
Proof.
  intros P F. apply (good_names (lexeme lang) (lex_word lang) lang (fun x => lexeme lang (Tok TIdent x)) (fun x H => H)); [exact (proj1 P)|].
  unfold G. destruct (all_toks lang) as (_ & _ & _ & _ & B & _). rewrite <- (B _ _ _ _ (proj2 P)). exact F.
Qed.
