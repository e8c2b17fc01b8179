(** What stands next to what in a program. *)
From Coq Require Import String List ZArith Lia Bool.
From Verif Require Import M_Base L_Util M_Fold M_Token M_Expr S_Expr L_Expr L_ExprPrint M_Stmt S_Stmt L_Stmt L_StmtEq L_StmtRead M_Emit S_Emit L_Emit.
Import ListNotations.
Open Scope Z_scope.

Fixpoint head_ex (e : ex) : tok :=
  match e with
  | XConst t => t
  | XDots => op_tok (asc "...")
  | XVar x => Tok TIdent x
  | XFun _ _ => op_tok (asc "function")
  | XGroup _ => op_tok (asc "(")
  | XUn op _ => op_tok op
  | XBin _ l _ => head_ex l
  | XMem e _ | XIdx e _ | XCall e _ _ | XMeth e _ _ _ => head_ex e
  | XTab _ => op_tok (asc "{")
  end.
Definition head_exs (es : exs) : tok := match es with XCons e _ => head_ex e | XNil => TErr end.
Definition head_st (s : st) : tok :=
  match s with
  | SSemi => op_tok (asc ";")
  | SDo _ => op_tok (asc "do")
  | SIf _ => op_tok (asc "if")
  | SWhile _ _ | SWhileShort _ _ _ => op_tok (asc "while")
  | SRepeat _ _ => op_tok (asc "repeat")
  | SFor _ _ _ _ _ | SForIn _ _ _ => op_tok (asc "for")
  | SBreak => op_tok (asc "break")
  | SReturn _ => op_tok (asc "return")
  | SLocal _ _ | SLocalFun _ _ _ => op_tok (asc "local")
  | SFun _ _ _ _ _ => op_tok (asc "function")
  | SGoto _ => op_tok (asc "goto")
  | SLabel _ => op_tok (asc "::")
  | SAssign es _ => head_exs es
  | SOp e _ _ | SCall e => head_ex e
  | SPrint _ => op_tok (asc "?")
  end.
Definition head_blk (b : blk) (k : option tok) : option tok := match b with BNil => k | BCons s _ => Some (head_st s) end.
Definition head_els (e : els) : tok := match e with ENone => op_tok (asc "end") | EElse _ => op_tok (asc "else") | EElif _ => op_tok (asc "elseif") end.
Definition hd_tok (r : list ltok) : option tok := match r with (t, _) :: _ => Some t | [] => None end.
(** Just the next token. *)
Definition nx (k : option tok) : list ltok := match k with Some t => [(t, 0)] | None => [] end.
Lemma hd_nx k : hd_tok (nx k) = k. Proof. now destruct k. Qed.
Fixpoint ends_paren (e : ex) : Prop :=
  match e with
  | XGroup _ | XCall _ false _ | XMeth _ _ false _ => True
  | XUn _ e => ends_paren e
  | XBin _ _ r => ends_paren r
  | _ => False
  end.
Definition not_string (r : list ltok) : Prop := match r with (Tok ty _, _) :: _ => ty <> TString | _ => True end.

Definition kend : option tok := Some (op_tok (asc "end")).
(** [last]: at the end of the body of a shorthand; [k]: the next token. *)
Fixpoint ap_ex (lang : language) (e : ex) {struct e} : Prop :=
  match e with
  | XConst _ | XDots | XVar _ => True
  | XFun _ b => ap_blk lang false kend b
  | XGroup e | XUn _ e | XMem e _ => ap_ex lang e
  | XBin _ l r => ap_ex lang l /\ ap_ex lang r
  | XIdx e k => ap_ex lang e /\ ap_ex lang k
  | XCall f _ args => ap_ex lang f /\ ap_exs lang args
  | XMeth e _ _ args => ap_ex lang e /\ ap_exs lang args
  | XTab i => ap_its lang i
  end
with ap_exs (lang : language) (es : exs) {struct es} : Prop := match es with XNil => True | XCons e es => ap_ex lang e /\ ap_exs lang es end
with ap_its (lang : language) (i : its) {struct i} : Prop :=
  match i with
  | INil => True
  | IIdx k v _ i => ap_ex lang k /\ ap_ex lang v /\ ap_its lang i
  | IMem _ v _ i => ap_ex lang v /\ ap_its lang i
  | IItem e _ i => ap_ex lang e /\ ap_its lang i
  end
with ap_st (lang : language) (last : bool) (k : option tok) (s : st) {struct s} : Prop :=
  match s with
  | SSemi | SBreak | SGoto _ | SLabel _ => True
  | SDo b => ap_blk lang false kend b
  | SIf i => ap_ifs lang k i
  | SWhile c b => ap_ex lang c /\ ap_blk lang false kend b
  | SWhileShort _ c b => ap_ex lang c /\ ends_paren c /\ follow lang c (nx (head_blk b k)) /\ ~ next_is ["do"]%string (nx (head_blk b k)) /\ ap_blk lang true k b
  | SRepeat b c => ap_blk lang false (Some (op_tok (asc "until"))) b /\ ap_ex lang c /\ follow lang c (nx k)
  | SFor _ a z step b => ap_ex lang a /\ ap_ex lang z /\ ap_exs lang step /\ ap_blk lang false kend b
  | SForIn _ es b => ap_exs lang es /\ ap_blk lang false kend b
  | SReturn XNil => next_is (";" :: closers)%string (nx k) \/ last = true
  | SReturn es => ap_exs lang es /\ follow_list lang es (nx k)
  | SLocal xs XNil => ~ next_is [","; "="]%string (nx k) /\ (lang = Picotron -> snd (List.last xs ([], None)) = None -> ~ next_is ["<"]%string (nx k))
  | SLocal _ es => ap_exs lang es /\ follow_list lang es (nx k)
  | SLocalFun _ _ b | SFun _ _ _ _ b => ap_blk lang false kend b
  | SAssign targets es => ap_exs lang targets /\ ap_exs lang es /\ follow_list lang es (nx k)
  | SOp target _ e => ap_ex lang target /\ ap_ex lang e /\ follow lang e (nx k)
  | SPrint es => ap_exs lang es /\ follow_list lang es (nx k) /\ stands_alone (nx k) /\ ~ next_is suffixes (nx k) /\ not_string (nx k)
  | SCall e => ap_ex lang e /\ follow lang e (nx k) /\ stands_alone (nx k)
  end
with ap_blk (lang : language) (short : bool) (k : option tok) (b : blk) {struct b} : Prop :=
  match b with
  | BNil => True
  | BCons s b => ap_st lang (match b with BNil => short | _ => false end) (head_blk b k) s /\ ap_blk lang short k b
  end
with ap_ifs (lang : language) (k : option tok) (i : ifs) {struct i} : Prop :=
  match i with
  | ILong _ c b e => ap_ex lang c /\ ap_blk lang false (Some (head_els e)) b /\ ap_els lang k e
  | IShort _ c b e =>
      ap_ex lang c /\ ends_paren c /\
      match e with
      | EElse b' =>
          follow lang c (nx (head_blk b (Some (op_tok (asc "else"))))) /\ ~ next_is ["then"]%string (nx (head_blk b (Some (op_tok (asc "else"))))) /\
          (lang = Pico8 -> ~ next_is ["do"]%string (nx (head_blk b (Some (op_tok (asc "else")))))) /\
          ap_blk lang true (Some (op_tok (asc "else"))) b /\ ap_blk lang true k b'
      | _ =>
          follow lang c (nx (head_blk b k)) /\ ~ next_is ["then"]%string (nx (head_blk b k)) /\
          (lang = Pico8 -> ~ next_is ["do"]%string (nx (head_blk b k))) /\ ap_blk lang true k b
      end
  end
with ap_els (lang : language) (k : option tok) (e : els) {struct e} : Prop :=
  match e with
  | ENone => True
  | EElse b => ap_blk lang false kend b
  | EElif i => ap_ifs lang k i
  end.

Section Apart.
Context (lang : language).
(** Statements about the next token alone. *)
Definition heady (P : list ltok -> Prop) : Prop := forall r r', hd_tok r = hd_tok r' -> P r -> P r'.
Lemma heady_next l : heady (next_is l).
Proof. intros [|(t, n) r] [|(t', n') r']; cbn; try easy. now intros [= ->]. Qed.
Lemma heady_not P : heady P -> heady (fun r => ~ P r).
Proof. intros H r r' E N Q. apply N. now apply (H r' r). Qed.
Lemma heady_and P Q : heady P -> heady Q -> heady (fun r => P r /\ Q r).
Proof. intros H H' r r' E (A & B). split; eauto. Qed.
Lemma heady_imp (A : Prop) P : heady P -> heady (fun r => A -> P r).
Proof. intros H r r' E B a. eauto. Qed.
Lemma heady_follow e : heady (follow lang e).
Proof. intros [|(t, n) r] [|(t', n') r']; cbn; try easy. now intros [= ->]. Qed.
Lemma heady_list es : heady (follow_list lang es).
Proof.
  induction es as [|e es IH]; [easy|]. destruct es; [|exact IH]. cbn [follow_list]. apply heady_and; [apply heady_follow|apply heady_not, heady_next].
Qed.
Lemma heady_alone : heady stands_alone.
Proof. apply heady_and; [apply heady_not, heady_next|]. intros [|(t, n) r] [|(t', n') r']; cbn; try easy. now intros [= ->]. Qed.
Lemma heady_string : heady not_string.
Proof. intros [|(t, n) r] [|(t', n') r']; cbn; try easy. now intros [= ->]. Qed.
End Apart.

Opaque S_Stmt.wf S_Stmt.wf_exs S_Stmt.wf_its S_Stmt.wf_st S_Stmt.wf_blk S_Stmt.wf_ifs S_Stmt.wf_els S_Stmt.lay S_Stmt.lay_list S_Stmt.lay_its S_Stmt.lay_st S_Stmt.lay_blk S_Stmt.lay_ifs S_Stmt.lay_els.

(** Take a sequence of rules apart. *)
Ltac unseq := repeat match goal with
  | H : seq _ _ _ _ |- _ => let a := fresh "p" in let b := fresh "p" in let A := fresh "L" in let B := fresh "L" in destruct H as (a & b & -> & A & B)
  | H : word _ _ _ |- _ => let l := fresh "l" in destruct H as (l & ->)
  | H : name _ _ _ |- _ => let l := fresh "l" in destruct H as (l & ->)
  | H : tk _ _ _ |- _ => let l := fresh "l" in destruct H as (l & ->)
  | H : ahead _ _ _ |- _ => let A := fresh "A" in destruct H as (-> & A)
  | H : nothing _ _ |- _ => red in H; subst
  end; cbn [app] in *; rewrite ?app_nil_r, <- ?app_assoc in *; cbn [app] in *.

Section Lay.
Context (lang : language).
Notation lay := (lay lang).
Notation lay_list := (lay_list lang).
Notation lay_st := (lay_st lang).
Notation lay_blk := (lay_blk lang).
Notation ap_ex := (ap_ex lang).
Notation ap_exs := (ap_exs lang).
Notation ap_its := (ap_its lang).
Notation ap_st := (ap_st lang).
Notation ap_blk := (ap_blk lang).
Notation ap_ifs := (ap_ifs lang).
Notation ap_els := (ap_els lang).

Lemma hd_app a r t : hd_tok a = Some t -> hd_tok (a ++ r) = Some t.
Proof. destruct a as [|(t', l) a]; [discriminate|easy]. Qed.
Lemma lay_head e : forall ts rest, lay e ts rest -> hd_tok ts = Some (head_ex e).
Proof.
  induction e as [t| |x|ps b|e IH|op e IH|op l IHl r IHr|e IH key|e IH k IHk|f IH s args|e IH key s args|i] using ex_ind; intros ts rest L; rewrite eq_lay_l in L; cbv iota in L; unseq; try reflexivity.
  all: match goal with H : lay _ _ _ |- _ => first [apply IH in H|apply IHl in H]; now apply hd_app end.
Qed.
Lemma list_head es ts rest : es <> XNil -> lay_list es ts rest -> hd_tok ts = Some (head_exs es).
Proof.
  destruct es as [|e es]; [easy|]. intros _ L. rewrite eq_lay_list_l in L. cbv iota in L. cbn [head_exs]. destruct es; [now apply lay_head in L|]. unseq. apply lay_head in L0. now apply hd_app.
Qed.
Lemma st_head vl s ts rest : wf_st lang s -> lay_st vl s ts rest -> hd_tok ts = Some (head_st s).
Proof.
  intros W L. rewrite eq_wf_st_l in W. rewrite eq_lay_st_l in L. destruct s; cbv iota in W, L; cbn [head_st]; unseq; try reflexivity.
  - destruct L as (l & L). unseq. reflexivity.
  - destruct es; unseq; reflexivity.
  - destruct es; unseq; reflexivity.
  - apply hd_app. eapply list_head; [|eassumption]. intros ->. easy.
  - apply hd_app. eapply lay_head. eassumption.
  - apply lay_head in L0. exact L0.
Qed.
Lemma blk_head vl b ts rest : wf_blk lang b -> lay_blk vl b ts rest -> hd_tok (ts ++ rest) = head_blk b (hd_tok rest).
Proof.
  intros W L. destruct b as [|s b]; rewrite eq_lay_blk_l in L; cbv iota in L; unseq; [reflexivity|]. rewrite eq_wf_blk_l in W. destruct W as (W & _). match goal with H : lay_st _ _ _ _ |- _ => apply (st_head _ _ _ _ W) in H end. cbn [head_blk]. now apply hd_app.
Qed.
Lemma to_nx P rest : heady P -> P rest -> P (nx (hd_tok rest)).
Proof. intros H. apply H. now rewrite hd_nx. Qed.
Lemma of_nx P rest k : heady P -> hd_tok rest = k -> P (nx k) -> P rest.
Proof. intros H E. apply H. now rewrite hd_nx. Qed.

Definition last_tok (ts : list ltok) : option tok := hd_tok (rev ts).
Lemma last_snoc a t l : last_tok (a ++ [(t, l)]) = Some t.
Proof. unfold last_tok. now rewrite rev_app_distr. Qed.
Lemma last_app a b : b <> [] -> last_tok (a ++ b) = last_tok b.
Proof. intros N. destruct (exists_last N) as (b' & (t, l) & ->). now rewrite app_assoc, !last_snoc. Qed.
Lemma last_cons x b : b <> [] -> last_tok (x :: b) = last_tok b.
Proof. apply (last_app [x]). Qed.
Lemma lay_some e ts rest : lay e ts rest -> ts <> [].
Proof. intros H ->. apply lay_head in H. discriminate H. Qed.
(** An expression with ")" as its last token. *)
Lemma short_last args ts rest : short_exs args -> lay_list args ts rest -> ts <> [] /\ last_tok ts <> Some (pt ")").
Proof.
  destruct args as [|e [|]]; try easy; [|now destruct e as [[[]|]| | | | | | | | | | |]].
  intros S L. split; [intros ->; apply list_head in L; easy|]. rewrite eq_lay_list_l in L. cbv iota in L. rewrite eq_lay_l in L.
  destruct e as [t| |x|ps b|e|op e|op l r|e key|e k|f s args|e key s args|i]; try easy; cbv iota in L; unseq.
  - destruct t as [[] v|]; easy.
  - rewrite app_comm_cons, last_snoc. discriminate.
Qed.
Lemma last_paren e : wf lang e -> forall ts rest, lay e ts rest -> last_tok ts = Some (pt ")") -> ends_paren e.
Proof.
  induction e as [t| |x|ps b|e IH|op e IH|op l0 IHl r IHr|e IH key|e IH k IHk|f IH s args|e IH key s args|i] using ex_ind; intros W ts rest L E; rewrite eq_wf_l in W; rewrite eq_lay_l in L; cbv iota in W, L; cbn [ends_paren]; unseq; try exact I; try discriminate E.
  - injection E as ->. easy.
  - rewrite !app_comm_cons, app_assoc, last_snoc in E. discriminate E.
  - destruct W as (_ & W & _). pose proof (lay_some _ _ _ L1). rewrite last_cons in E by easy. eapply IH; eassumption.
  - destruct W as (_ & _ & W & _). match goal with H : lay r _ _ |- _ => pose proof (lay_some _ _ _ H) as N; rewrite last_app, last_cons in E by easy; eapply IHr; eassumption end.
  - rewrite (last_app p [_; _]) in E by easy. discriminate E.
  - rewrite app_comm_cons, app_assoc, last_snoc in E. discriminate E.
  - destruct s; [|exact I]. destruct W as (_ & _ & _ & S). match goal with H : lay_list _ _ _ |- _ => destruct (short_last _ _ _ (S eq_refl) H) as (N & N') end. rewrite last_app in E by easy. easy.
  - destruct s; [|exact I]. destruct W as (_ & _ & _ & _ & S). match goal with H : lay_list _ _ _ |- _ => destruct (short_last _ _ _ (S eq_refl) H) as (N & N') end. rewrite last_app, !last_cons in E by easy. easy.
  - rewrite app_comm_cons, last_snoc in E. discriminate E.
Qed.
End Lay.
