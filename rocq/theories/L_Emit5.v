(** What is written is a program again: the rules of the grammar along the output. *)
From Coq Require Import String List ZArith Lia Bool.
From Verif Require Import M_Base L_Util M_Fold M_Token M_Expr S_Expr L_Expr L_ExprPrint M_Stmt S_Stmt L_Stmt L_StmtEq L_StmtRead L_StmtRead2 M_Emit S_Emit L_Emit L_Emit2 L_Emit3 L_Emit4.
Import ListNotations.
Open Scope Z_scope.

Opaque S_Stmt.wf S_Stmt.wf_exs S_Stmt.wf_its S_Stmt.wf_st S_Stmt.wf_blk S_Stmt.wf_ifs S_Stmt.wf_els S_Stmt.lay S_Stmt.lay_list S_Stmt.lay_its S_Stmt.lay_st S_Stmt.lay_blk S_Stmt.lay_ifs S_Stmt.lay_els.

Section Up.
Context (lang : language).
Notation lay := (lay lang).
Notation lay_list := (lay_list lang).
Notation lay_its := (lay_its lang).
Notation lay_st := (lay_st lang).
Notation lay_blk := (lay_blk lang).
Notation lay_ifs := (lay_ifs lang).
Notation lay_els := (lay_els lang).

Definition u_ex (e : ex) : rule := fun ts rest => exists e', un_ex e' = un_ex e /\ lay e' ts rest.
Definition u_list (e : exs) : rule := fun ts rest => exists e', un_exs e' = un_exs e /\ lay_list e' ts rest.
Definition u_its (e : its) : rule := fun ts rest => exists e', un_its e' = un_its e /\ lay_its e' ts rest.
Definition u_st (vl : option Z) (e : st) : rule := fun ts rest => exists e', un_st e' = un_st e /\ lay_st vl e' ts rest.
Definition u_blk (vl : option Z) (e : blk) : rule := fun ts rest => exists e', un_blk e' = un_blk e /\ lay_blk vl e' ts rest.
Definition u_ifs (e : ifs) : rule := fun ts rest => exists e', un_ifs e' = un_ifs e /\ lay_ifs e' ts rest.
Definition u_els (e : els) : rule := fun ts rest => exists e', un_els e' = un_els e /\ lay_els e' ts rest.

Ltac apart := repeat match goal with
  | H : seq _ _ _ _ |- _ => destruct H as (? & ? & -> & ? & ?)
  | H : u_ex _ _ _ |- _ => destruct H as (? & ? & ?)
  | H : u_list _ _ _ |- _ => destruct H as (? & ? & ?)
  | H : u_its _ _ _ |- _ => destruct H as (? & ? & ?)
  | H : u_st _ _ _ _ |- _ => destruct H as (? & ? & ?)
  | H : u_blk _ _ _ _ |- _ => destruct H as (? & ? & ?)
  | H : u_ifs _ _ _ |- _ => destruct H as (? & ? & ?)
  | H : u_els _ _ _ |- _ => destruct H as (? & ? & ?)
  end.
Ltac build := repeat (eapply seq_i; [eassumption|]); eassumption.
Ltac eqs := cbn [un_ex un_exs un_its un_st un_blk un_ifs un_els]; congruence.
Ltac up1 := intros; apart; eexists; split; [|eassumption].

Lemma up_fun ps b ts rest : (word "function" >> word "(" >> params ps >> word ")" >> u_blk None b >> word "end") ts rest -> u_ex (XFun ps b) ts rest.
Proof. intros. apart. refine (ex_intro _ (XFun ps _) (conj _ _)); [|rewrite eq_lay_l; build]. eqs. Qed.
Lemma up_group e ts rest : (word "(" >> u_ex e >> word ")") ts rest -> u_ex (XGroup e) ts rest.
Proof. intros. apart. refine (ex_intro _ (XGroup _) (conj _ _)); [|rewrite eq_lay_l; build]. eqs. Qed.
Lemma up_un op e ts rest : (tk (op_tok op) >> u_ex e) ts rest -> u_ex (XUn op e) ts rest.
Proof. intros. apart. refine (ex_intro _ (XUn _ _) (conj _ _)); [|rewrite eq_lay_l; build]. eqs. Qed.
Lemma up_bin op l r ts rest : (u_ex l >> tk (op_tok op) >> u_ex r) ts rest -> u_ex (XBin op l r) ts rest.
Proof. intros. apart. refine (ex_intro _ (XBin _ _ _) (conj _ _)); [|rewrite eq_lay_l; build]. eqs. Qed.
Lemma up_mem e key ts rest : (u_ex e >> word "." >> name key) ts rest -> u_ex (XMem e key) ts rest.
Proof. intros. apart. refine (ex_intro _ (XMem _ _) (conj _ _)); [|rewrite eq_lay_l; build]. eqs. Qed.
Lemma up_idx e k ts rest : (u_ex e >> word "[" >> u_ex k >> word "]") ts rest -> u_ex (XIdx e k) ts rest.
Proof. intros. apart. refine (ex_intro _ (XIdx _ _) (conj _ _)); [|rewrite eq_lay_l; build]. eqs. Qed.
Lemma up_call f (s : bool) args ts rest : (u_ex f >> (if s then u_list args else word "(" >> u_list args >> word ")")) ts rest -> u_ex (XCall f s args) ts rest.
Proof. intros. destruct s; apart. { refine (ex_intro _ (XCall _ true _) (conj _ _)); [|rewrite eq_lay_l; build]. eqs. } { refine (ex_intro _ (XCall _ false _) (conj _ _)); [|rewrite eq_lay_l; build]. eqs. } Qed.
Lemma up_meth e key (s : bool) args ts rest : (u_ex e >> word ":" >> name key >> (if s then u_list args else word "(" >> u_list args >> word ")")) ts rest -> u_ex (XMeth e key s args) ts rest.
Proof. intros. destruct s; apart. { refine (ex_intro _ (XMeth _ _ true _) (conj _ _)); [|rewrite eq_lay_l; build]. eqs. } { refine (ex_intro _ (XMeth _ _ false _) (conj _ _)); [|rewrite eq_lay_l; build]. eqs. } Qed.
Lemma up_tab i ts rest : (word "{" >> u_its i >> word "}") ts rest -> u_ex (XTab i) ts rest.
Proof. intros. apart. refine (ex_intro _ (XTab _) (conj _ _)); [|rewrite eq_lay_l; build]. eqs. Qed.
Lemma up_cons e es ts rest : (match es with XNil => u_ex e | _ => u_ex e >> word "," >> u_list es end) ts rest -> u_list (XCons e es) ts rest.
Proof.
  intros. destruct es; apart.
  - refine (ex_intro _ (XCons _ XNil) (conj _ _)); [|rewrite eq_lay_list_l; eassumption]. eqs.
  - match goal with H : lay_list ?x _ _ |- _ => destruct x; [discriminate|] end. refine (ex_intro _ (XCons _ (XCons _ _)) (conj _ _)); [|rewrite eq_lay_list_l; cbv iota; build]. cbn [un_exs] in *. congruence.
Qed.
Lemma up_iidx k v sep i ts rest : (word "[" >> u_ex k >> word "]" >> word "=" >> u_ex v >> separated sep >> u_its i) ts rest -> u_its (IIdx k v sep i) ts rest.
Proof. intros. apart. refine (ex_intro _ (IIdx _ _ _ _) (conj _ _)); [|rewrite eq_lay_its_l; build]. eqs. Qed.
Lemma up_imem key v sep i ts rest : (name key >> word "=" >> u_ex v >> separated sep >> u_its i) ts rest -> u_its (IMem key v sep i) ts rest.
Proof. intros. apart. refine (ex_intro _ (IMem _ _ _ _) (conj _ _)); [|rewrite eq_lay_its_l; build]. eqs. Qed.
Lemma up_iitem e sep i ts rest : (u_ex e >> separated sep >> u_its i) ts rest -> u_its (IItem e sep i) ts rest.
Proof. intros. apart. refine (ex_intro _ (IItem _ _ _) (conj _ _)); [|rewrite eq_lay_its_l; build]. eqs. Qed.
Lemma up_do vl b ts rest : (word "do" >> u_blk None b >> word "end") ts rest -> u_st vl (SDo b) ts rest.
Proof. intros. apart. refine (ex_intro _ (SDo _) (conj _ _)); [|rewrite eq_lay_st_l; build]. eqs. Qed.
Lemma up_if vl i ts rest : (word "if" >> u_ifs i) ts rest -> u_st vl (SIf i) ts rest.
Proof. intros. apart. refine (ex_intro _ (SIf _) (conj _ _)); [|rewrite eq_lay_st_l; build]. eqs. Qed.
Lemma up_while vl c b ts rest : (word "while" >> u_ex c >> word "do" >> u_blk None b >> word "end") ts rest -> u_st vl (SWhile c b) ts rest.
Proof. intros. apart. refine (ex_intro _ (SWhile _ _) (conj _ _)); [|rewrite eq_lay_st_l; build]. eqs. Qed.
Lemma same_follow e e' r : un_ex e' = un_ex e -> follow lang e r -> follow lang e' r.
Proof. intros E F. apply follow_un in F. apply follow_un. now rewrite E. Qed.
Lemma same_list e e' r : un_exs e' = un_exs e -> follow_list lang e r -> follow_list lang e' r.
Proof. intros E F. apply follow_list_un in F. apply follow_list_un. now rewrite E. Qed.
Lemma up_while_short vl n c b l w ct bt rest : word "while" w (ct ++ bt ++ rest) -> u_ex c ct (bt ++ rest) -> (exists ts', ct = ts' ++ [(pt ")", l)]) ->
  follow lang c (bt ++ rest) -> ~ next_is ["do"]%string (bt ++ rest) -> u_blk (Some l) b bt rest -> u_st vl (SWhileShort n c b) (w ++ ct ++ bt) rest.
Proof.
  intros W (c' & E & L) P F N (b' & E' & L'). exists (SWhileShort (on_line l rest) c' b'). split; [eqs|]. rewrite eq_lay_st_l. exists l. apply seq_i; [now rewrite <- app_assoc|].
  apply seq_i; [easy|]. apply ahead_l; [split; [now apply (same_follow c)|easy]|]. apply ahead_r; [easy|]. now apply nested_line.
Qed.
Lemma up_repeat vl b c ts rest : (word "repeat" >> u_blk None b >> word "until" >> u_ex c) ts rest -> follow lang c rest -> u_st vl (SRepeat b c) ts rest.
Proof.
  intros H F. apart. refine (ex_intro _ (SRepeat _ _) (conj _ _)); [|rewrite eq_lay_st_l; repeat (eapply seq_i; [eassumption|]); apply ahead_r; [eassumption|]]; [eqs|]. eapply same_follow; eassumption.
Qed.
Lemma up_for vl x a z (step : exs) b ts rest : (word "for" >> name x >> word "=" >> u_ex a >> word "," >> u_ex z >>
      match step with XNil => nothing | step => word "," >> u_list step end >> word "do" >> u_blk None b >> word "end") ts rest -> u_st vl (SFor x a z step b) ts rest.
Proof.
  intros. destruct step; apart.
  - refine (ex_intro _ (SFor _ _ _ XNil _) (conj _ _)); [|rewrite eq_lay_st_l; build]. eqs.
  - match goal with H : lay_list ?x _ _ |- _ => destruct x; [discriminate|] end. refine (ex_intro _ (SFor _ _ _ (XCons _ _) _) (conj _ _)); [|rewrite eq_lay_st_l; cbv iota]; [|do 6 (eapply seq_i; [eassumption|]); eapply seq_i; [eapply seq_i; [eassumption|eassumption]|build]]. cbn [un_st un_exs] in *. congruence.
Qed.
Lemma up_for_in vl xs es b ts rest : (word "for" >> names xs >> word "in" >> u_list es >> word "do" >> u_blk None b >> word "end") ts rest -> u_st vl (SForIn xs es b) ts rest.
Proof. intros. apart. refine (ex_intro _ (SForIn xs _ _) (conj _ _)); [|rewrite eq_lay_st_l; build]. eqs. Qed.
Lemma up_return vl es w ts rest : es <> XNil -> word "return" w (ts ++ rest) -> ~ past vl (ts ++ rest) -> u_list es ts rest -> follow_list lang es rest -> u_st vl (SReturn es) (w ++ ts) rest.
Proof.
  intros N W P (es' & E & L) F. exists (SReturn es'). split; [eqs|]. rewrite eq_lay_st_l. destruct es' as [|e' es']; [now destruct es|]. apply seq_i; [easy|]. apply ahead_l; [easy|]. apply ahead_r; [easy|]. now apply (same_list es).
Qed.
Lemma up_local vl xs es ts rest : es <> XNil -> (word "local" >> vars xs >> word "=" >> u_list es) ts rest -> follow_list lang es rest -> u_st vl (SLocal xs es) ts rest.
Proof.
  intros N H F. apart. match goal with H : lay_list ?x _ _ |- _ => exists (SLocal xs x); split; [eqs|]; rewrite eq_lay_st_l; destruct x; [now destruct es|] end. repeat (eapply seq_i; [eassumption|]). apply ahead_r; [easy|]. now apply (same_list es).
Qed.
Lemma up_local_fun vl x ps b ts rest : (word "local" >> word "function" >> name x >> word "(" >> params ps >> word ")" >> u_blk None b >> word "end") ts rest -> u_st vl (SLocalFun x ps b) ts rest.
Proof. intros. apart. refine (ex_intro _ (SLocalFun _ _ _) (conj _ _)); [|rewrite eq_lay_st_l; build]. eqs. Qed.
Lemma up_sfun vl x path (meth : option (list Z)) ps b ts rest : (word "function" >> name x >> dotted path >> match meth with Some m => word ":" >> name m | None => nothing end >>
      word "(" >> params ps >> word ")" >> u_blk None b >> word "end") ts rest -> u_st vl (SFun x path meth ps b) ts rest.
Proof.
  intros (a & r & -> & A & H). destruct H as (a2 & r2 & -> & A2 & H). destruct H as (a3 & r3 & -> & A3 & H). destruct H as (a4 & r4 & -> & A4 & H). apart. refine (ex_intro _ (SFun _ _ _ _ _) (conj _ _)); [|rewrite eq_lay_st_l; build]. eqs.
Qed.
Lemma up_assign vl targets es ts rest : (u_list targets >> word "=" >> u_list es) ts rest -> follow_list lang es rest -> u_st vl (SAssign targets es) ts rest.
Proof.
  intros H F. apart. refine (ex_intro _ (SAssign _ _) (conj _ _)); [|rewrite eq_lay_st_l; repeat (eapply seq_i; [eassumption|]); apply ahead_r; [eassumption|]]; [eqs|]. now apply (same_list es).
Qed.
Lemma up_op vl target op e ts rest : (u_ex target >> tk (Tok TPunct op) >> u_ex e) ts rest -> follow lang e rest -> u_st vl (SOp target op e) ts rest.
Proof.
  intros H F. apart. refine (ex_intro _ (SOp _ _ _) (conj _ _)); [|rewrite eq_lay_st_l; repeat (eapply seq_i; [eassumption|]); apply ahead_r; [eassumption|]]; [eqs|]. now apply (same_follow e).
Qed.
Lemma up_print vl es ts rest : (word "?" >> u_list es) ts rest -> follow_list lang es rest -> stands_alone rest -> ~ next_is suffixes rest -> not_string rest -> u_st vl (SPrint es) ts rest.
Proof.
  intros H F S N St. apart. refine (ex_intro _ (SPrint _) (conj _ _)); [|rewrite eq_lay_st_l; repeat (eapply seq_i; [eassumption|]); apply ahead_r; [eassumption|]]; [eqs|]. split; [now apply (same_list es)|easy].
Qed.
Lemma up_scall vl e ts rest : u_ex e ts rest -> follow lang e rest -> stands_alone rest -> u_st vl (SCall e) ts rest.
Proof. intros (e' & E & L) F S. exists (SCall e'). split; [eqs|]. rewrite eq_lay_st_l. apply ahead_r; [easy|]. split; [now apply (same_follow e)|easy]. Qed.
Lemma up_bcons vl s b ts rest : (u_st vl s >> u_blk vl b) ts rest -> ~ past vl (ts ++ rest) -> u_blk vl (BCons s b) ts rest.
Proof. intros H P. apart. refine (ex_intro _ (BCons _ _) (conj _ _)); [|rewrite eq_lay_blk_l; apply ahead_l; [easy|]; build]. eqs. Qed.
Lemma up_bnil vl rest : rest = [] \/ next_is closers rest \/ past vl rest -> u_blk vl BNil [] rest.
Proof. intros H. exists BNil. split; [easy|]. rewrite eq_lay_blk_l. easy. Qed.
Lemma up_long w c b e ts rest : (u_ex c >> tk (op_tok w) >> u_blk None b >> u_els e) ts rest -> u_ifs (ILong w c b e) ts rest.
Proof. intros. apart. refine (ex_intro _ (ILong _ _ _ _) (conj _ _)); [|rewrite eq_lay_ifs_l; build]. eqs. Qed.
Lemma up_short n c b l ct bt rest : u_ex c ct (bt ++ rest) -> (exists ts', ct = ts' ++ [(pt ")", l)]) ->
  follow lang c (bt ++ rest) -> ~ next_is ["then"]%string (bt ++ rest) -> (lang = Pico8 -> ~ next_is ["do"]%string (bt ++ rest)) -> u_blk (Some l) b bt rest ->
  ~ (same_line l rest /\ next_is ["else"]%string rest) -> u_ifs (IShort n c b ENone) (ct ++ bt) rest.
Proof.
  intros (c' & E & L) P F N N' (b' & E' & L') Q. exists (IShort (on_line l rest) c' b' ENone). split; [eqs|]. rewrite eq_lay_ifs_l. exists l. apply seq_i; [easy|]. apply ahead_l; [split; [now apply (same_follow c)|easy]|].
  exists bt, []. rewrite app_nil_r. split; [easy|]. split; [easy|]. apply ahead_l; [easy|]. apply ahead_0. now apply nested_line.
Qed.
Lemma up_short_else n c b b2 l ct bt bt2 rest : u_ex c ct ((bt ++ (kw "else", l) :: bt2) ++ rest) -> (exists ts', ct = ts' ++ [(pt ")", l)]) ->
  follow lang c (bt ++ (kw "else", l) :: bt2 ++ rest) -> ~ next_is ["then"]%string (bt ++ (kw "else", l) :: bt2 ++ rest) -> (lang = Pico8 -> ~ next_is ["do"]%string (bt ++ (kw "else", l) :: bt2 ++ rest)) ->
  u_blk (Some l) b bt ((kw "else", l) :: bt2 ++ rest) -> u_blk (Some l) b2 bt2 rest ->
  u_ifs (IShort n c b (EElse b2)) (ct ++ bt ++ (kw "else", l) :: bt2) rest.
Proof.
  intros (c' & E & L) P F N N' (b' & E' & L') (b2' & E2 & L2). exists (IShort (on_line l rest) c' b' (EElse b2')). split; [eqs|]. rewrite eq_lay_ifs_l. exists l. apply seq_i; [easy|]. apply ahead_l; [rewrite <- app_assoc; split; [now apply (same_follow c)|easy]|].
  apply seq_i; [easy|]. apply ahead_r; [|now apply nested_line]. now apply (seq_i _ _ [(kw "else", l)]).
Qed.
Lemma up_else b ts rest : (word "else" >> u_blk None b >> word "end") ts rest -> u_els (EElse b) ts rest.
Proof. intros. apart. refine (ex_intro _ (EElse _) (conj _ _)); [|rewrite eq_lay_els_l; build]. eqs. Qed.
Lemma up_elif i ts rest : (word "elseif" >> u_ifs i) ts rest -> u_els (EElif i) ts rest.
Proof. intros. apart. refine (ex_intro _ (EElif _) (conj _ _)); [|rewrite eq_lay_els_l; build]. eqs. Qed.
End Up.
