(** The laid-out text is read as its tokens. *)
From Coq Require Import String List ZArith Lia Bool.
From Verif Require Import M_Base L_Util M_Fold M_Token S_Str S_Token L_Token L_TokenSeq M_Expr S_Expr L_Expr L_ExprTok M_Stmt S_Stmt M_Emit M_Unmin S_Unmin L_Unmin.
Import ListNotations.
Open Scope Z_scope.

(** What has been put out last: whitespace or nothing, a token, or an added word. *)
Inductive left := Loose | Tight (t : tok) (un : bool) | Worded.
Definition first_char (t : tok) : Z := hd 0 (tok_value t).
Definition bare_word (w : list Z) : list Z := match w with 32 :: v => v | v => v end.
Fixpoint etoks (l : list ev) : list tok :=
  match l with
  | [] => []
  | ETok t _ :: l => t :: etoks l
  | EWord w :: l => op_tok (bare_word w) :: etoks l
  | _ :: l => etoks l
  end.
Lemma etoks_app a b : etoks (a ++ b) = etoks a ++ etoks b.
Proof. induction a as [|[] a IH]; cbn; congruence. Qed.

Section Runs.
Context (lang : language).
Definition enters (s : left) (t : tok) : Prop :=
  match s with
  | Loose => True
  | Tight p u => glued p u t = true -> passes lang p (first_char t)
  | Worded => False
  end.
Definition wspace (g : list Z) : Prop := Forall (fun c => mem c k_wspace = true) g.
Inductive runs : left -> list ev -> left -> Prop :=
| r_nil s : runs s [] s
| r_tok s t u l s' : lexeme lang t -> enters s t -> runs (Tight t u) l s' -> runs s (ETok t u :: l) s'
| r_gap s g l s' : wspace g -> s = Loose \/ g <> [] -> runs Loose l s' -> runs s (EGap g :: l) s'
| r_word s w l s' : lexeme lang (op_tok (bare_word w)) -> s = Loose \/ (s <> Worded /\ exists v, w = 32 :: v) -> runs Worded l s' -> runs s (EWord w :: l) s'.
Lemma runs_app s a s' b s'' : runs s a s' -> runs s' b s'' -> runs s (a ++ b) s''.
Proof. induction 1; cbn [app]; intros; [assumption|..]; econstructor; eauto. Qed.

Lemma tokenize_gap g out : wspace g -> tokenize lang (g ++ out) = tokenize lang out.
Proof.
  induction 1 as [|c g C G IH]; [reflexivity|]. cbn [app]. rewrite tokenize_cons. unfold tok_round. rewrite C, IH. destruct (tokenize lang out); reflexivity.
Qed.
Definition reads (s : left) (out : list Z) (ts : list tok) : Prop :=
  match s with
  | Loose => tokenize lang out = Ok ts
  | Tight p _ => lexeme lang p -> tokenize lang (tok_value p ++ out) = Ok (p :: ts)
  | Worded => forall p, lexeme lang p -> tokenize lang (tok_value p ++ out) = Ok (p :: ts)
  end.
Definition matches (s : left) (prev : option (tok * bool)) : Prop :=
  match s with Loose => prev = None | Tight p u => prev = Some (p, u) | Worded => True end.
Lemma after_gap p g out ts : lexeme lang p -> wspace g -> g <> [] -> tokenize lang out = Ok ts -> tokenize lang (tok_value p ++ g ++ out) = Ok (p :: ts).
Proof.
  intros L G N E. destruct g as [|c g]; [easy|]. inversion G as [|? ? C G']; subst. cbn [app]. apply (passes_space lang p c L C). change (c :: g ++ out) with ((c :: g) ++ out). now rewrite tokenize_gap.
Qed.
Lemma trim_word w out : w = bare_word w \/ w = 32 :: bare_word w -> tokenize lang (w ++ out) = tokenize lang (bare_word w ++ out).
Proof. intros [E|E]; [now rewrite <- E|]. rewrite E at 1. cbn [app]. change (32 :: bare_word w ++ out) with ([32] ++ bare_word w ++ out). apply tokenize_gap. now constructor. Qed.
Lemma bare_cases w : w = bare_word w \/ w = 32 :: bare_word w.
Proof. destruct w as [|c w]; [now left|]. destruct (Z.eqb_spec c 32) as [->|N]; [now right|]. left. unfold bare_word. destruct c as [|p|]; try reflexivity. do 6 (destruct p as [p|p|]; try reflexivity). exfalso. now apply N. Qed.
Lemma runs_text s l s' : runs s l s' -> forall prev, matches s prev -> exists out, put prev l = Ok out /\ reads s out (etoks l).
Proof.
  induction 1 as [s|s t u l s' L E R IH|s g l s' G N R IH|s w l s' L N R IH]; intros prev M.
  - exists []. split; [reflexivity|]. destruct s as [|p u|]; cbn [reads etoks]; [reflexivity| |]; [intros Lp|intros p Lp]; rewrite app_nil_r; apply Lp.
  - destruct (IH (Some (t, u)) eq_refl) as (out & O & T). cbn [reads] in T. specialize (T L).
    destruct s as [|p v|]; [| |easy]; cbn [matches] in M; subst prev; cbn [put]; rewrite O; cbn [bind].
    + eexists. split; [reflexivity|]. exact T.
    + eexists. split; [reflexivity|]. cbn [reads etoks]. intros Lp. cbn [enters] in E. destruct (glued p v t).
      * specialize (E eq_refl). pose proof (lexeme_value _ _ L) as V. unfold first_char in E. cbn [app]. destruct (tok_value t) as [|c x]; [easy|]. cbn [hd] in E. apply E. exact T.
      * apply (after_gap p [32]); [exact Lp|now constructor|easy|exact T].
  - destruct (IH None eq_refl) as (out & O & T). cbn [reads] in T. cbn [put]. rewrite O. cbn [bind]. eexists. split; [reflexivity|]. cbn [etoks].
    destruct s as [|p v|]; cbn [reads].
    + now rewrite tokenize_gap.
    + intros Lp. destruct N as [N|N]; [discriminate N|]. now apply after_gap.
    + intros p Lp. destruct N as [N|N]; [discriminate N|]. now apply after_gap.
  - destruct (IH prev I) as (out & O & T). specialize (T _ L). unfold op_tok in T at 1. cbn [tok_value] in T. cbn [put]. rewrite O. cbn [bind]. eexists. split; [reflexivity|]. cbn [etoks].
    assert (W : tokenize lang (w ++ out) = Ok (op_tok (bare_word w) :: etoks l)) by (rewrite trim_word by apply bare_cases; exact T).
    destruct s as [|p v|]; cbn [reads]; [exact W| |].
    + intros Lp. destruct N as [N|(_ & x & ->)]; [discriminate N|]. rewrite <- app_comm_cons in *. change (32 :: x ++ out) with ([32] ++ x ++ out) in *. rewrite tokenize_gap in W by now constructor. apply after_gap; [exact Lp|now constructor|easy|exact W].
    + destruct N as [N|(N & _)]; [discriminate N|]. now elim N.
Qed.

(** * Which tokens come next to which *)
Definition word_tok (t : tok) : Prop :=
  match t with
  | Tok TNumber v | Tok TString v | Tok TIdent v => plain_word v
  | Tok TKeyword v => is_keyword v = true
  | _ => False
  end.
(** The last and the first token of an expression *)
Definition ender (t : tok) : Prop := (word_tok t /\ t <> kw "function") \/ In t (map pt ["..."; ")"; "]"; "}"]%string).
Definition callend (t : tok) : Prop := (exists v, (t = Tok TIdent v \/ t = Tok TString v) /\ plain_word v) \/ In t (map pt [")"; "]"; "}"]%string).
Definition starter (t : tok) : Prop := word_tok t \/ In t (map pt ["..."; "("; "{"; "-"; "~"; "#"; "@"; "%"; "$"; "*"]%string).
Lemma word_unlisted t l : word_tok t -> forallb (fun s => existsb (zeqb_list (asc s)) symbols && negb (is_keyword (asc s))) l = true -> existsb (zeqb_list (tok_value t)) (map asc l) = false.
Proof.
  intros W F. destruct (existsb (zeqb_list (tok_value t)) (map asc l)) eqn:E; [|reflexivity]. exfalso. apply existsb_in in E. apply in_map_iff in E. destruct E as (s & E & I). rewrite forallb_forall in F. specialize (F s I). apply andb_prop in F. destruct F as (F & G). rewrite E in F, G. apply existsb_in in F. apply negb_true_iff in G.
  destruct t as [[] v|]; cbn [word_tok tok_value] in *; try easy; try (now destruct W). congruence.
Qed.
(** Behind [p] comes a space, but for what sticks to anything. *)
Definition apart (p : tok) (u : bool) : bool :=
  negb (tight_prefix p) && negb (match p with Tok TIdent _ => true | _ => false end) && negb (existsb (zeqb_list (tok_value p)) (map asc ["function"; ")"; "]"; "}"]%string)) &&
  negb (match p with Tok TPunct _ => true | _ => false end && u).
Lemma apart_enters p u t : apart p u = true -> tight_suffix t = false -> enters (Tight p u) t.
Proof.
  unfold apart. intros A B G. exfalso. apply andb_prop in A. destruct A as (A & A4). apply andb_prop in A. destruct A as (A & A3). apply andb_prop in A. destruct A as (A1 & A2). apply negb_true_iff in A1, A2, A3, A4. unfold glued in G. rewrite A1, A2, A3, A4, B in G. cbn [orb] in G. rewrite andb_false_r in G. discriminate G.
Qed.
Lemma starter_suffix t : starter t -> tight_suffix t = false.
Proof. intros [W|I]; [now apply word_unlisted|]. each I; reflexivity. Qed.
Lemma ender_prefix t : ender t -> tight_prefix t = false.
Proof. intros [(W & _)|I]; [now apply word_unlisted|]. each I; reflexivity. Qed.
Definition no_paren (t : tok) : bool := negb (existsb (zeqb_list (tok_value t)) (map asc ["("; "["]%string)).
Lemma ender_enters p t : ender p -> tight_suffix t = false -> no_paren t = true -> enters (Tight p false) t.
Proof.
  intros E S N G. exfalso. unfold glued in G. rewrite (ender_prefix p E), S in G. unfold no_paren in N. apply negb_true_iff in N. rewrite N, andb_false_r in G. discriminate G.
Qed.
Lemma ender_stops p c : lexeme lang p -> ender p -> In c stops -> passes lang p c.
Proof.
  intros L [(W & _)|I] S.
  - destruct p as [[] v|]; try easy; [now apply pass_number| | |now apply pass_string]; (apply pass_word; [exact L|auto|destruct lang; each S; reflexivity]).
  - each I; apply pass_single; cbn; tauto.
Qed.
Lemma callend_ender p : callend p -> ender p.
Proof. intros [(v & [->| ->] & P)|I]; [left; split; [exact P|discriminate]|left; split; [exact P|discriminate]|]. right. cbn in *. tauto. Qed.
Lemma callend_dot p : lexeme lang p -> callend p -> passes lang p 46.
Proof. intros L [(v & [->| ->] & P)|I]; [apply pass_word; auto; destruct lang; reflexivity|now apply pass_string|]. each I; apply pass_single; cbn; tauto. Qed.
Lemma first_op s : first_char (op_tok (asc s)) = hd 0 (asc s). Proof. reflexivity. Qed.
Lemma suffix_enters p s : lexeme lang p -> ender p -> In (hd 0 (asc s)) stops -> enters (Tight p false) (op_tok (asc s)).
Proof. intros L E S _. rewrite first_op. now apply ender_stops. Qed.
Lemma member_enters p : lexeme lang p -> callend p -> enters (Tight p false) (op_tok (asc ".")).
Proof. intros L E _. now apply callend_dot. Qed.

(** First characters. *)
Lemma word_first ty v : lexeme lang (Tok ty v) -> ty = TIdent \/ ty = TKeyword -> is_ident_char lang (hd 0 v) = true /\ is_dec_digit (hd 0 v) = false.
Proof.
  intros L Ty. apply lexeme_round in L. destruct L as (ch & x & -> & R). cbn [hd]. unfold tok_round in R. rewrite app_nil_r in R.
  destruct (mem ch k_wspace); [discriminate R|]. destruct (is_dec_digit ch || ((ch =? 46) && M_Token.next_is is_dec_digit x)) eqn:D.
  { destruct (scan_number lang (ch :: x)). injection R as <- _ _. destruct Ty; discriminate. }
  apply orb_false_elim in D. destruct D as (D & _). destruct (is_ident_char lang ch) eqn:I; [easy|]. exfalso.
  destruct ((ch =? 34) || (ch =? 39)); [destruct (scan_string ch MText x); try discriminate R; injection R as <- _ _; destruct Ty; discriminate|].
  destruct ((ch =? 91) && M_Token.next_is (fun c => mem c [61; 91]) x); [destruct (scan_long (ch :: x)); try discriminate R; injection R as <- _ _; destruct Ty; discriminate|].
  destruct ((ch =? 45) && M_Token.next_is (Z.eqb 45) x); [destruct (scan_long (skipn 1 x)); discriminate R|].
  destruct ((ch =? 47) && is_pico8 lang && M_Token.next_is (Z.eqb 47) x); [discriminate R|].
  destruct (mem ch punct_chars); [destruct (scan_punct lang ch x); injection R as <- _ _; destruct Ty; discriminate|].
  destruct ((ch =? 33) && M_Token.next_is (Z.eqb 61) x); [injection R as <- _ _; destruct Ty; discriminate|discriminate R].
Qed.
Lemma number_first v : lexeme lang (Tok TNumber v) -> is_dec_digit (hd 0 v) = true \/ hd 0 v = 46.
Proof.
  intros L. apply lexeme_round in L. destruct L as (ch & x & -> & R). cbn [hd]. unfold tok_round in R. rewrite app_nil_r in R.
  destruct (mem ch k_wspace); [discriminate R|]. destruct (is_dec_digit ch || ((ch =? 46) && M_Token.next_is is_dec_digit x)) eqn:D.
  { apply orb_prop in D. destruct D as [D|D]; [now left|]. apply andb_prop in D. destruct D as (D & _). right. now apply Z.eqb_eq. }
  exfalso. destruct (is_ident_char lang ch); [destruct (span (is_ident_char lang) (ch :: x)) as (a, y); unfold ident_tok in R; destruct (is_keyword a); discriminate R|].
  destruct ((ch =? 34) || (ch =? 39)); [destruct (scan_string ch MText x); discriminate R|].
  destruct ((ch =? 91) && M_Token.next_is (fun c => mem c [61; 91]) x); [destruct (scan_long (ch :: x)); discriminate R|].
  destruct ((ch =? 45) && M_Token.next_is (Z.eqb 45) x); [destruct (scan_long (skipn 1 x)); discriminate R|].
  destruct ((ch =? 47) && is_pico8 lang && M_Token.next_is (Z.eqb 47) x); [discriminate R|].
  destruct (mem ch punct_chars); [destruct (scan_punct lang ch x); discriminate R|].
  destruct ((ch =? 33) && M_Token.next_is (Z.eqb 61) x); discriminate R.
Qed.
Lemma string_first v : lexeme lang (Tok TString v) -> In (hd 0 v) [34; 39; 91].
Proof.
  intros L. apply lexeme_round in L. destruct L as (ch & x & -> & R). cbn [hd]. unfold tok_round in R. rewrite app_nil_r in R.
  destruct (mem ch k_wspace); [discriminate R|]. destruct (is_dec_digit ch || ((ch =? 46) && M_Token.next_is is_dec_digit x)).
  { destruct (scan_number lang (ch :: x)). discriminate R. }
  destruct (is_ident_char lang ch); [destruct (span (is_ident_char lang) (ch :: x)) as (a, y); unfold ident_tok in R; destruct (is_keyword a); discriminate R|].
  destruct ((ch =? 34) || (ch =? 39)) eqn:Q; [apply orb_prop in Q; rewrite !Z.eqb_eq in Q; cbn; intuition auto|].
  destruct ((ch =? 91) && M_Token.next_is (fun c => mem c [61; 91]) x) eqn:B; [apply andb_prop in B; rewrite Z.eqb_eq in B; cbn; intuition auto|]. exfalso.
  destruct ((ch =? 45) && M_Token.next_is (Z.eqb 45) x); [destruct (scan_long (skipn 1 x)); discriminate R|].
  destruct ((ch =? 47) && is_pico8 lang && M_Token.next_is (Z.eqb 47) x); [discriminate R|].
  destruct (mem ch punct_chars); [destruct (scan_punct lang ch x); discriminate R|].
  destruct ((ch =? 33) && M_Token.next_is (Z.eqb 61) x); discriminate R.
Qed.
Lemma not_ident c : In c [61; 45; 46; 58; 91] -> is_ident_char lang c = false.
Proof. intros I. each I; destruct lang; reflexivity. Qed.
Lemma starter_first t : lexeme lang t -> starter t -> first_char t <> 61 /\ (first_char t = 45 -> t = pt "-") /\ (first_char t = 91 -> exists v, t = Tok TString (91 :: v)).
Proof.
  intros L [W|I].
  - destruct t as [[] v|]; try easy; unfold first_char; cbn [tok_value].
    + destruct (number_first v L) as [D|D]; [unfold is_dec_digit in D; apply andb_prop in D; rewrite !Z.leb_le in D|]; repeat split; lia.
    + destruct (word_first TIdent v L) as (D & _); [auto|]. repeat split; intros E; rewrite E in D; rewrite not_ident in D; try discriminate D; cbn; tauto.
    + destruct (word_first TKeyword v L) as (D & _); [auto|]. repeat split; intros E; rewrite E in D; rewrite not_ident in D; try discriminate D; cbn; tauto.
    + pose proof (string_first v L) as D. pose proof (lexeme_value _ _ L) as V. cbn [tok_value] in V. destruct v as [|c v]; [easy|]. cbn [hd] in *. cbn in D. repeat split; [intros ->; intuition lia|intros ->; intuition lia|]. intros ->. now exists v.
  - each I; unfold first_char; vm_compute; (split; [discriminate|split; [try discriminate; auto|discriminate]]).
Qed.
Lemma ident_enters p v : In p ["."; ":"; "::"]%string -> lexeme lang (Tok TIdent v) -> enters (Tight (op_tok (asc p)) false) (Tok TIdent v).
Proof.
  intros I L _. unfold first_char. cbn [tok_value]. destruct (word_first TIdent v L) as (A & B); [auto|].
  assert (N : hd 0 v <> 46 /\ hd 0 v <> 58) by (split; intros E; rewrite E in A; rewrite not_ident in A; try discriminate A; cbn; tauto).
  each I; [now apply pass_dot|now apply pass_colon|now apply (pass_single lang "::"); cbn; tauto].
Qed.
Lemma open_enters p t : In p ["("; "{"; "?"]%string -> enters (Tight (op_tok (asc p)) false) t.
Proof. intros I _. each I; [apply (pass_single lang "(")|apply (pass_single lang "{")|apply (pass_single lang "?")]; cbn; tauto. Qed.
Lemma bracket_enters t : lexeme lang t -> starter t -> (forall v, t <> Tok TString (91 :: v)) -> enters (Tight (op_tok (asc "[")) false) t.
Proof. intros L S N _. destruct (starter_first t L S) as (A & _ & B). apply pass_bracket; [exact A|]. intros E. destruct (B E) as (v & ->). now elim (N v). Qed.
Lemma unary_enters op t : unary lang op -> lexeme lang t -> starter t -> ~ (op = asc "-" /\ t = op_tok (asc "-")) -> enters (Tight (op_tok op) true) t.
Proof.
  intros U L S N. destruct (starter_first t L S) as (A & B & _).
  destruct U as [I|(-> & _)]; [|intros _; apply (pass_op lang "*"); [cbn; tauto|exact A|discriminate]]. cbn in I. 
  destruct I as [<-|[<-|[<-|[<-|[<-|[<-|[<-|[]]]]]]]].
  - intros _. apply (pass_op lang "-"); [cbn; tauto|exact A|]. intros _ E. apply N. split; [reflexivity|now apply B].
  - intros _. apply (pass_op lang "~"); [cbn; tauto|exact A|discriminate].
  - apply apart_enters; [reflexivity|now apply starter_suffix].
  - intros _. apply (pass_single lang "#"). cbn; tauto.
  - intros _. apply (pass_single lang "@"). cbn; tauto.
  - intros _. apply (pass_op lang "%"); [cbn; tauto|exact A|discriminate].
  - intros _. apply (pass_single lang "$"). cbn; tauto.
Qed.
End Runs.
