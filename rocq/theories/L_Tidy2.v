(** Cleaning up tokens: what stands next to what. *)
From Coq Require Import String List ZArith Lia Bool.
From Verif Require Import M_Base L_Util M_Fold M_Token M_Expr S_Expr L_Expr L_ExprPrint M_Stmt S_Stmt L_Stmt L_StmtEq L_StmtRead M_Emit S_Emit L_Emit L_Emit2 L_Emit4 M_Tidy S_Tidy L_Tidy.
Import ListNotations.
Open Scope Z_scope.

(** Tokens that begin a statement or close a block, and do not go on with what is before. *)
Definition starters : list string :=
  ["do"; "if"; "while"; "repeat"; "for"; "break"; "return"; "local"; "function"; "goto"; "::"; "?"; ";"; "end"; "else"; "elseif"; "until"]%string.
Definition calm_tok (t : tok) : Prop := (exists x, t = Tok TIdent x /\ plain_word x) \/ In t (map (fun s => op_tok (asc s)) starters).
Definition paren : tok := op_tok (asc "(").
Definition ok_next (k : option tok) : Prop := match k with None => True | Some t => calm_tok t \/ t = paren end.
Definition quiet (k : option tok) : Prop := match k with None => True | Some t => calm_tok t end.
Definition semi : option tok := Some (op_tok (asc ";")).
(** The next token, before and after: only a ";" changes. *)
Definition moved (h h' : option tok) : Prop := h' = h \/ (h = semi /\ quiet h').

Lemma plain_not x s : plain_word x -> In (asc s) symbols \/ is_keyword (asc s) = true -> x <> asc s.
Proof. intros (A & B) [C|C] ->; [easy|congruence]. Qed.

Section Quiet.
Context (lang : language).
Lemma plain_level x k : plain_word x -> ~ level_of x k.
Proof.
  intros (A & _) (ops & s & E & I & -> & _). apply A. unfold symbols. apply in_map. revert E I. unfold levels.
  generalize (k - 1)%nat. intros n. do 12 (destruct n as [|n]; [intros [= <-] I; cbn in I |- *; tauto|]). now destruct n.
Qed.
Lemma calm_follow t e : calm_tok t -> follow lang e (nx (Some t)).
Proof.
  intros [(x & -> & P)|I]; cbn [nx follow].
  - split; [intros k L; now apply plain_level in L|]. intros _. split; [|discriminate]. intros I. destruct P as (P & _). apply P. cbn in I. unfold symbols. cbn. tauto.
  - apply in_map_iff in I. destruct I as (s & <- & I). unfold op_tok. cbn [follow]. split.
    + intros k L. apply level_prec in L. cbn in I. repeat (destruct I as [<-|I]; [discriminate L|]). easy.
    + intros _. split; [|now destruct (is_keyword (asc s))]. cbn in I. repeat (destruct I as [<-|I]; [apply not_in; vm_compute; reflexivity|]). easy.
Qed.
Lemma quiet_follow k e : quiet k -> follow lang e (nx k).
Proof. destruct k; [apply calm_follow|easy]. Qed.
(** Words that are symbols and do not begin a statement. *)
Definition inner (l : list string) : bool :=
  forallb (fun s => negb (existsb (zeqb_list (asc s)) (map asc l))) starters && forallb (fun s => existsb (zeqb_list (asc s)) symbols || is_keyword (asc s)) l.
Lemma calm_not t l : inner l = true -> calm_tok t -> ~ next_is l (nx (Some t)).
Proof.
  intros C. apply andb_prop in C. destruct C as (C & D). intros [(x & -> & P)|I]; cbn [nx next_is].
  - intros J. apply in_map_iff in J. destruct J as (s & <- & J). rewrite forallb_forall in D. specialize (D s J). destruct P as (P & Q). rewrite Q, orb_false_r in D. apply existsb_in in D. easy.
  - apply in_map_iff in I. destruct I as (s & <- & I). unfold op_tok. cbn [next_is]. rewrite forallb_forall in C. specialize (C s I). apply not_in. now apply negb_true_iff in C.
Qed.
Lemma quiet_not k l : inner l = true -> quiet k -> ~ next_is l (nx k).
Proof. destruct k; [apply calm_not|easy]. Qed.
Lemma quiet_list k es : quiet k -> follow_list lang es (nx k).
Proof. 
  intros Q. induction es as [|e es IH]; [easy|]. destruct es; [|exact IH]. cbn [follow_list]. split; [now apply quiet_follow|]. now apply quiet_not.
Qed.
Lemma quiet_string k : quiet k -> not_string (nx k).
Proof.
  destruct k as [t|]; [|easy]. intros [(x & -> & _)|I]; [discriminate|]. apply in_map_iff in I. destruct I as (s & <- & _). unfold op_tok. cbn [nx not_string]. now destruct (is_keyword (asc s)).
Qed.
Lemma quiet_alone k : quiet k -> stands_alone (nx k).
Proof.
  intros Q. split; [now apply quiet_not|]. destruct k as [t|]; [|easy]. destruct Q as [(x & -> & _)|I]; [exact Logic.I|]. apply in_map_iff in I. destruct I as (s & <- & J). unfold op_tok. cbn [nx].
  destruct (is_keyword (asc s)) eqn:K; [exact Logic.I|]. intros (o & E). change (asc "=") with [61] in E. apply (f_equal (fun l => last l 0)) in E. rewrite last_last in E. cbn in J. repeat (destruct J as [<-|J]; [discriminate E|]). easy.
Qed.

(** Moving on. *)
Lemma moved_follow e e' h h' : (open_end e' <-> open_end e) -> moved h h' -> follow lang e (nx h) -> follow lang e' (nx h').
Proof.
  intros O [->|(_ & Q)] F; [|now apply quiet_follow]. destruct h as [[ty v|]|]; [|easy|easy]. cbn [nx follow] in *. now rewrite O.
Qed.
Lemma moved_list ver es h h' : moved h h' -> follow_list lang es (nx h) -> follow_list lang (tidy_exs lang ver es) (nx h').
Proof.
  intros M. induction es as [|e es IH]; [easy|]. destruct es; [|exact IH]. cbn [tidy_exs follow_list]. intros (A & B). split; [eapply moved_follow; [apply open_tidy|eassumption|exact A]|].
  destruct M as [->|(_ & Q)]; [exact B|now apply quiet_not].
Qed.
Lemma moved_not l h h' : inner l = true -> moved h h' -> ~ next_is l (nx h) -> ~ next_is l (nx h').
Proof. intros I [->|(_ & Q)]; [easy|]. intros _. now apply quiet_not. Qed.
Lemma moved_alone h h' : moved h h' -> stands_alone (nx h) -> stands_alone (nx h').
Proof. intros [->|(_ & Q)]; [easy|]. intros _. now apply quiet_alone. Qed.
Lemma moved_string h h' : moved h h' -> not_string (nx h) -> not_string (nx h').
Proof. intros [->|(_ & Q)]; [easy|]. intros _. now apply quiet_string. Qed.

(** First tokens. *)
Lemma begin_first m t : begin m = Some t -> first m = Some t.
Proof. induction m as [|[]]; cbn; easy. Qed.
Lemma next_head b k : wf_blk lang b -> next b k = head_blk b k.
Proof.
  intros W. unfold next. destruct b as [|s b]; [reflexivity|]. assert (N : BCons s b <> BNil) by easy. pose proof (begin_blk lang _ W N) as B. cbn [head_blk] in B. now rewrite (begin_first _ _ B).
Qed.
Lemma els_head e : first (m_els e) = Some (head_els e).
Proof. destruct e as [| |[|[] ? ? ?]]; reflexivity. Qed.
Lemma head_call e : callable_ex e -> wf lang e -> (exists x, head_ex e = Tok TIdent x /\ plain_word x) \/ head_ex e = paren.
Proof.
  induction e as [t| |x|ps b|e IH|op e IH|op l IHl r IHr|e IH key|e IH k IHk|f IH s args|e IH key s args|i] using ex_ind; intros C W; rewrite eq_wf_l in W; cbv iota in W; cbn [head_ex]; try easy.
  - left. now exists x.
  - right. reflexivity.
  - apply IH; easy.
  - apply IH; easy.
  - apply IH; easy.
  - apply IH; easy.
Qed.
Lemma head_start s : wf_st lang s -> lua_st s -> calm_tok (head_st s) \/ head_st s = paren.
Proof.
  intros W L. rewrite eq_wf_st_l in W. assert (A : forall e, callable_ex e -> wf lang e -> calm_tok (head_ex e) \/ head_ex e = paren).
  { intros e C We. destruct (head_call e C We) as [(x & E & P)|E]; [left; left; now exists x|now right]. }
  destruct s; cbv iota in W; cbn [head_st lua_st] in *; try (left; right; apply in_map with (f := fun s => op_tok (asc s)); cbn; tauto).
  - destruct targets as [|e ?]; [easy|]. destruct L as (L & _). destruct W as (_ & W & _). rewrite eq_wf_exs_l in W. cbn [head_exs]. apply A; [now destruct e|easy].
  - destruct L as (L & _). apply A; [now destruct target|easy].
  - apply A; [now destruct e|easy].
Qed.
Lemma head_tidy ver e : head_ex (tidy_ex lang ver e) = head_ex e.
Proof. induction e using ex_ind; cbn; congruence. Qed.
Lemma head_st_tidy ver k s : head_st (tidy_st lang ver k s) = head_st s.
Proof. destruct s; cbn [tidy_st head_st]; try reflexivity; try apply head_tidy. destruct targets; [reflexivity|apply head_tidy]. Qed.
Lemma opens_paren k : ok_next k -> opens k = true <-> k = Some paren.
Proof.
  destruct k as [t|]; [|easy]. intros [C| ->]; [|easy]. split.
  - destruct C as [(x & -> & P & _)|I]; cbn [opens].
    + intros E. apply zeqb_sound in E. subst x. exfalso. apply P. apply existsb_in. reflexivity.
    + apply in_map_iff in I. destruct I as (s & <- & J). unfold op_tok. cbn [opens]. cbn in J. repeat (destruct J as [<-|J]; [discriminate|]). easy.
  - intros [= ->]. reflexivity.
Qed.
Lemma ok_quiet k : ok_next k -> opens k = false -> quiet k.
Proof. destruct k as [t|]; [|easy]. intros [C| ->]; [easy|discriminate]. Qed.
Lemma ok_head b k whole : wf_blk lang b -> lua_blk whole b -> ok_next k -> ok_next (head_blk b k).
Proof. destruct b as [|s b]; [easy|]. rewrite eq_wf_blk_l. intros (W & _) (L & _) _. now apply head_start. Qed.
Lemma head_moved ver keep b whole k k' : wf_blk lang b -> lua_blk whole b -> ok_next k -> moved k k' -> moved (head_blk b k) (head_blk (tidy_blk lang ver keep k b) k').
Proof.
  intros W L O M. induction b as [|s b IH] using blk_ind; [exact M|]. pose proof W as W'. rewrite eq_wf_blk_l in W'. cbv iota in W'. destruct W' as (Ws & Wb). pose proof L as L'. destruct L' as (Ls & _ & Lb). specialize (IH Wb Lb). destruct (st_eq_dec_semi s) as [->|N].
  - cbn [tidy_blk head_blk head_st]. rewrite (next_head b k Wb). destruct (opens (head_blk b k) || keep) eqn:E; [now left|]. right. split; [reflexivity|]. apply orb_false_elim in E. destruct E as (E & _).
    destruct IH as [->|(_ & Q)]; [|exact Q]. apply ok_quiet; [|exact E]. now apply (ok_head b k whole).
  - rewrite tidy_nosemi by exact N. cbn [head_blk]. rewrite head_st_tidy. now left.
Qed.
End Quiet.
