(** Lemmas: trees that differ in names only, place by place. *)
From Coq Require Import String List ZArith Bool Lia.
From Verif Require Import M_Base L_Util M_Fold M_Token M_Expr S_Expr M_Stmt S_Stmt L_Stmt S_Tidy S_Unmin S_Short.
Import ListNotations.

Section Like.
Context (P : list Z -> list Z -> Prop).
Definition like_opt (p p' : option (list Z)) : Prop :=
  match p, p' with Some x, Some x' => P x x' | None, None => True | _, _ => False end.
Definition like_var (x x' : list Z * option (list Z)) : Prop := P (fst x) (fst x') /\ snd x = snd x'.

Fixpoint like_ex (e e' : ex) {struct e} : Prop :=
  match e, e' with
  | XConst t, XConst t' => t = t'
  | XDots, XDots => True
  | XVar x, XVar x' => P x x'
  | XFun ps b, XFun ps' b' => Forall2 like_opt ps ps' /\ like_blk b b'
  | XGroup e, XGroup e' => like_ex e e'
  | XUn op e, XUn op' e' => op = op' /\ like_ex e e'
  | XBin op a b, XBin op' a' b' => op = op' /\ like_ex a a' /\ like_ex b b'
  | XMem e k, XMem e' k' => like_ex e e' /\ P k k'
  | XIdx e k, XIdx e' k' => like_ex e e' /\ like_ex k k'
  | XCall f s args, XCall f' s' args' => like_ex f f' /\ s = s' /\ like_exs args args'
  | XMeth e k s args, XMeth e' k' s' args' => like_ex e e' /\ P k k' /\ s = s' /\ like_exs args args'
  | XTab i, XTab i' => like_its i i'
  | _, _ => False
  end
with like_exs (es es' : exs) {struct es} : Prop :=
  match es, es' with
  | XNil, XNil => True
  | XCons e es, XCons e' es' => like_ex e e' /\ like_exs es es'
  | _, _ => False
  end
with like_its (i i' : its) {struct i} : Prop :=
  match i, i' with
  | INil, INil => True
  | IIdx k v s i, IIdx k' v' s' i' => like_ex k k' /\ like_ex v v' /\ s = s' /\ like_its i i'
  | IMem k v s i, IMem k' v' s' i' => P k k' /\ like_ex v v' /\ s = s' /\ like_its i i'
  | IItem e s i, IItem e' s' i' => like_ex e e' /\ s = s' /\ like_its i i'
  | _, _ => False
  end
with like_st (s s' : st) {struct s} : Prop :=
  match s, s' with
  | SSemi, SSemi | SBreak, SBreak => True
  | SDo b, SDo b' => like_blk b b'
  | SIf i, SIf i' => like_ifs i i'
  | SWhile c b, SWhile c' b' => like_ex c c' /\ like_blk b b'
  | SWhileShort n c b, SWhileShort n' c' b' => n = n' /\ like_ex c c' /\ like_blk b b'
  | SRepeat b c, SRepeat b' c' => like_blk b b' /\ like_ex c c'
  | SFor x a z step b, SFor x' a' z' step' b' => P x x' /\ like_ex a a' /\ like_ex z z' /\ like_exs step step' /\ like_blk b b'
  | SForIn xs es b, SForIn xs' es' b' => Forall2 P xs xs' /\ like_exs es es' /\ like_blk b b'
  | SReturn es, SReturn es' => like_exs es es'
  | SLocal xs es, SLocal xs' es' => Forall2 like_var xs xs' /\ like_exs es es'
  | SLocalFun x ps b, SLocalFun x' ps' b' => P x x' /\ Forall2 like_opt ps ps' /\ like_blk b b'
  | SFun x path meth ps b, SFun x' path' meth' ps' b' =>
      P x x' /\ Forall2 P path path' /\ like_opt meth meth' /\ Forall2 like_opt ps ps' /\ like_blk b b'
  | SGoto l, SGoto l' | SLabel l, SLabel l' => P l l'
  | SAssign ts es, SAssign ts' es' => like_exs ts ts' /\ like_exs es es'
  | SOp t op e, SOp t' op' e' => like_ex t t' /\ op = op' /\ like_ex e e'
  | SPrint es, SPrint es' => like_exs es es'
  | SCall e, SCall e' => like_ex e e'
  | _, _ => False
  end
with like_blk (b b' : blk) {struct b} : Prop :=
  match b, b' with
  | BNil, BNil => True
  | BCons s b, BCons s' b' => like_st s s' /\ like_blk b b'
  | _, _ => False
  end
with like_ifs (i i' : ifs) {struct i} : Prop :=
  match i, i' with
  | ILong w c b e, ILong w' c' b' e' => w = w' /\ like_ex c c' /\ like_blk b b' /\ like_els e e'
  | IShort n c b e, IShort n' c' b' e' => n = n' /\ like_ex c c' /\ like_blk b b' /\ like_els e e'
  | _, _ => False
  end
with like_els (e e' : els) {struct e} : Prop :=
  match e, e' with
  | ENone, ENone => True
  | EElse b, EElse b' => like_blk b b'
  | EElif i, EElif i' => like_ifs i i'
  | _, _ => False
  end.


Ltac pairs := repeat match goal with H : _ /\ _ |- _ => destruct H | H : False |- _ => destruct H end; subst.
Ltac other := match goal with
  | L : like_ex _ ?e |- _ => destruct e; cbn in L; try contradiction
  | L : like_exs _ ?e |- _ => destruct e; cbn in L; try contradiction
  | L : like_its _ ?e |- _ => destruct e; cbn in L; try contradiction
  | L : like_st _ ?e |- _ => destruct e; cbn in L; try contradiction
  | L : like_blk _ ?e |- _ => destruct e; cbn in L; try contradiction
  | L : like_ifs _ ?e |- _ => destruct e; cbn in L; try contradiction
  | L : like_els _ ?e |- _ => destruct e; cbn in L; try contradiction
  end.
Ltac two_sided := apply prog_all; intros; other; pairs.

Lemma like_leads e : forall e', like_ex e e' -> leads e <> op_tok (asc "(") -> leads e' <> op_tok (asc "(").
Proof. induction e; intros e' L N; destruct e'; cbn in L; try contradiction; pairs; cbn in *; auto; discriminate. Qed.
Lemma like_do b : forall b', like_blk b b' -> do_first b' -> do_first b.
Proof. induction b as [|s b IH]; intros b' L N; destruct b' as [|s' b']; cbn in L; try contradiction; pairs; cbn in *; auto. destruct s, s'; cbn in *; try contradiction; auto; eauto. Qed.
Lemma like_late b b' : like_blk b b' -> no_late_do b -> no_late_do b'.
Proof.
  intros L N. destruct b as [|s b], b' as [|s' b']; cbn in L; try contradiction; [exact I|]. pairs. destruct s, s'; cbn in H; try contradiction; cbn in *; auto.
  intros D. apply N. eapply like_do; eauto.
Qed.
Lemma like_lined : (forall e e', like_ex e e' -> forall m, lined_ex m e -> lined_ex m e') /\ (forall es es', like_exs es es' -> forall m, lined_exs m es -> lined_exs m es') /\
  (forall i i', like_its i i' -> forall m, lined_its m i -> lined_its m i') /\ (forall s s', like_st s s' -> forall m, lined_st m s -> lined_st m s') /\
  (forall b b', like_blk b b' -> forall m, lined_blk m b -> lined_blk m b') /\ (forall i i', like_ifs i i' -> forall m, lined_ifs m i -> lined_ifs m i') /\
  (forall e e', like_els e e' -> forall m, lined_els m e -> lined_els m e').
Proof.
  two_sided; cbn [lined_ex lined_exs lined_its lined_st lined_blk lined_ifs lined_els] in *; pairs; eauto 4; try (repeat split; eauto 4; fail).
  - destruct b, b'; try (match goal with L : like_blk _ _ |- _ => destruct L end; fail); pairs; [auto|]. split; auto.
  - split; [auto|]. split; [auto|]. split; [auto|]. match goal with H : forall e', like_els e e' -> _, L : like_els e e0 |- _ => specialize (H _ L AtEnd) end.
    destruct e, e0; try (match goal with L : like_els _ _ |- _ => destruct L end; fail); pairs; auto; cbn in *; try tauto; split; auto.
  - destruct i, i0; cbn in *; try tauto. exact (H (ILong _ _ _ _) H0 m H1).
Qed.
Lemma like_semis b : forall b', like_blk b b' -> semis b -> semis b'.
Proof. induction b as [|s b IH]; intros b' L N; destruct b' as [|s' b']; cbn in L; try contradiction; pairs; cbn in *; auto. destruct s, s'; cbn in *; try contradiction; auto; eauto. Qed.
Lemma like_body b b' : like_blk b b' -> body_ok b -> body_ok b'.
Proof. intros L (A & B). split; [destruct b, b'; cbn in L; try contradiction; congruence|]. intros D. apply B. eapply like_do; eauto. Qed.
Lemma like_in_parens e e' : like_ex e e' -> in_parens e -> in_parens e'.
Proof. destruct e, e'; cbn; tauto. Qed.
Lemma like_assignable e e' : like_ex e e' -> assignable e -> assignable e'.
Proof. destruct e, e'; cbn; tauto. Qed.
Lemma like_lua : (forall e e', like_ex e e' -> lua_ex e -> lua_ex e') /\ (forall es es', like_exs es es' -> lua_exs es -> lua_exs es') /\
  (forall i i', like_its i i' -> lua_its i -> lua_its i') /\ (forall s s', like_st s s' -> lua_st s -> lua_st s') /\
  (forall b b', like_blk b b' -> forall w, lua_blk w b -> lua_blk w b') /\ (forall i i', like_ifs i i' -> lua_ifs i -> lua_ifs i') /\
  (forall e e', like_els e e' -> lua_els e -> lua_els e').
Proof.
  two_sided; cbn [lua_ex lua_exs lua_its lua_st lua_blk lua_ifs lua_els] in *; pairs; eauto 4; try (repeat split; eauto 4 using like_in_parens, like_assignable, like_body; fail).
  - split; [eapply like_in_parens; eauto|]. split; [eapply like_body; eauto|]. split; auto.
  - split; [|split; auto]. destruct targets, targets0; cbn in *; try tauto. pairs. eauto using like_assignable.
  - split; [auto|]. split; [|auto]. destruct s, s0; cbn in *; try contradiction; auto. pairs. split; [eapply like_semis; eauto|]. intros ->. destruct es; cbn in *; auto. contradiction.
  - split; [eapply like_in_parens; eauto|]. split; [eapply like_body; eauto|]. repeat split; auto.
Qed.
Context (HP : forall x x', P x x' -> named_print x = false -> named_print x' = false).
Lemma like_plain : (forall e e', like_ex e e' -> plain_ex e -> plain_ex e') /\ (forall es es', like_exs es es' -> plain_exs es -> plain_exs es') /\ (forall i i', like_its i i' -> plain_its i -> plain_its i') /\ (forall s s', like_st s s' -> plain_st s -> plain_st s') /\ (forall b b', like_blk b b' -> plain_blk b -> plain_blk b') /\ (forall i i', like_ifs i i' -> plain_ifs i -> plain_ifs i') /\ (forall e e', like_els e e' -> plain_els e -> plain_els e').
Proof.
  two_sided; cbn in *; pairs; eauto; try (repeat split; eauto using like_late; fail).
  - split; [|eauto]. destruct targets as [|t ts], targets0 as [|t' ts']; cbn in *; try contradiction; auto. pairs. unfold no_paren_at in *. eapply like_leads; eauto.
  - repeat split; eauto. unfold no_paren_at in *. eapply like_leads; eauto.
  - repeat split; [unfold no_paren_at in *; eapply like_leads; eauto| |eauto].
    destruct e0; auto. destruct e0; auto. destruct args; auto. destruct e; cbn in *; try contradiction. pairs. destruct e; cbn in *; try contradiction. destruct args; cbn in *; [|contradiction]. eauto.
Qed.

(** Trees of the grammar, and their tokens. *)
Context (lang : language) (HW : forall x x', P x x' -> plain_word x /\ plain_word x').
Lemma HW0 x x' : P x x' -> plain_word x -> plain_word x'.
Proof. intros H _. exact (proj2 (HW x x' H)). Qed.
#[local] Hint Resolve HW0 : core.
Local Opaque plain_word.
Lemma like_tight e e' k : like_ex e e' -> tight_ex e k -> tight_ex e' k.
Proof. intros L. destruct e, e'; cbn in L |- *; try contradiction; auto. pairs. auto. Qed.
Lemma like_un e e' : like_ex e e' -> is_un e -> is_un e'.
Proof. destruct e, e'; cbn; tauto. Qed.
Lemma like_callable e e' : like_ex e e' -> callable_ex e -> callable_ex e'.
Proof. destruct e, e'; cbn; tauto. Qed.
Lemma like_call e e' : like_ex e e' -> is_call e -> is_call e'.
Proof. destruct e, e'; cbn; tauto. Qed.
Lemma like_short es es' : like_exs es es' -> short_exs es -> short_exs es'.
Proof.
  destruct es as [|e [|]], es' as [|e' [|]]; cbn; try tauto; destruct e, e'; cbn; try tauto; intros (-> & _); auto.
Qed.
Lemma like_sep s i i' : like_its i i' -> sep_ok s i -> sep_ok s i'.
Proof. intros L. destruct s; cbn; [auto|]. intros ->. destruct i'; cbn in L; tauto. Qed.
Lemma like_params ps ps' : Forall2 (like_opt) ps ps' -> Forall param_ok ps -> Forall param_ok ps'.
Proof. induction 1 as [|p p' ps ps' H F IH]; intros A; inversion A; subst; constructor; auto. destruct p, p'; cbn in *; try contradiction; eauto. Qed.
Lemma like_attrs xs xs' : Forall2 (like_var) xs xs' -> Forall (attr_ok lang) xs -> Forall (attr_ok lang) xs'.
Proof. induction 1 as [|x x' xs xs' (H & E) F IH]; intros A; inversion A as [|? ? (A1 & A2)]; subst; constructor; auto. split; [eauto|]. now rewrite <- E. Qed.
Lemma like_words xs xs' : Forall2 P xs xs' -> Forall plain_word xs -> Forall plain_word xs'.
Proof. induction 1 as [|x x' xs xs' H F IH]; intros A; inversion A; subst; constructor; eauto. Qed.
Lemma like_fun e : forall e', like_ex e e' -> fun_first e' -> fun_first e.
Proof. induction e; intros e' L N; destruct e'; cbn in L; try contradiction; cbn in *; auto. pairs. eauto. Qed.
Lemma like_some {A B} (R : A -> B -> Prop) xs xs' : Forall2 R xs xs' -> xs <> [] -> xs' <> [].
Proof. destruct 1; congruence. Qed.
Lemma like_any es es' : like_exs es es' -> es <> XNil -> es' <> XNil.
Proof. destruct es, es'; cbn; congruence. Qed.

Lemma like_wf : (forall e e', like_ex e e' -> wf lang e -> wf lang e') /\ (forall es es', like_exs es es' -> wf_exs lang es -> wf_exs lang es') /\
  (forall i i', like_its i i' -> wf_its lang i -> wf_its lang i') /\ (forall s s', like_st s s' -> wf_st lang s -> wf_st lang s') /\
  (forall b b', like_blk b b' -> wf_blk lang b -> wf_blk lang b') /\ (forall i i', like_ifs i i' -> wf_ifs lang i -> wf_ifs lang i') /\
  (forall e e', like_els e e' -> wf_els lang e -> wf_els lang e').
Proof.
  two_sided; cbn [wf wf_exs wf_its wf_st wf_blk wf_ifs wf_els] in *; fold (wf lang) (wf_exs lang) (wf_its lang) (wf_st lang) (wf_blk lang) (wf_ifs lang) (wf_els lang) in *; pairs; eauto 3;
    try (repeat split; first [eapply HW0; eassumption|eapply like_callable; eassumption|eauto 3 using like_short, like_sep, like_params, like_attrs, like_words, like_some, like_any, like_tight, like_call]; fail).
  - split; [assumption|]. split; [eauto|]. split; [eauto|]. match goal with H : exists k, _ |- _ => destruct H as (k & K & Q) end. exists k. split; [exact K|].
    destruct Q as [(? & ? & [?|?])|(? & ? & [?|?])]; [left|left|right|right]; (split; [assumption|]); (split; [eapply like_tight; eauto|]); [left|right|left|right]; eauto using like_tight, like_un.
  - split; [eapply HW0; eauto|]. repeat split; eauto; try (eapply like_params; eassumption). destruct step as [|s1 [|s2 step]], step0 as [|s1' [|s2' step0]]; cbn in *; tauto.
  - split; [eapply HW0; eauto|]. split; [eapply like_words; eauto|]. split; [destruct meth, meth0; cbn in *; try tauto; eapply HW0; eauto|]. split; [eapply like_params; eauto|eauto].
  - split; [|repeat split; eauto using like_any]. destruct targets, targets0; cbn in *; try tauto. pairs. intros F. eapply like_fun in F; eauto.
  - split; [eauto|]. split; [intros F; eapply like_fun in F; eauto|]. split; [assumption|eauto].
  - repeat split; eauto. destruct e, e0; cbn in *; tauto.
Qed.

(* ------------------------------------------------------------------ *)
(** * Tokens *)
Local Transparent plain_word.
Context (d : Z).
Definition like_tok (t t' : ltok) : Prop :=
  snd t' = (snd t + d)%Z /\ (fst t' = fst t \/ exists x x', fst t = Tok TIdent x /\ fst t' = Tok TIdent x' /\ P x x').
Definition like_ts : list ltok -> list ltok -> Prop := Forall2 like_tok.
Definition shift (vl : option Z) : option Z := option_map (fun l => (l + d)%Z) vl.

Definition reserved (l : list string) : Prop := Forall (fun s => In (asc s) symbols \/ is_keyword (asc s) = true) l.
Lemma not_reserved x l : plain_word x -> reserved l -> ~ In x (map asc l).
Proof.
  intros (N & K) R I. apply in_map_iff in I. destruct I as (s & <- & I). unfold reserved in R. rewrite Forall_forall in R. destruct (R s I) as [H|H]; [auto|congruence].
Qed.
Ltac reserve := unfold reserved; repeat (constructor; [first [left; vm_compute; tauto|right; vm_compute; reflexivity]|]); constructor.
Lemma res_closers : reserved closers. Proof. reserve. Qed.
Lemma res_suffixes : reserved suffixes. Proof. reserve. Qed.
Lemma res_semi : reserved (";" :: closers)%string. Proof. reserve. Qed.
Lemma res_comma : reserved [","]%string. Proof. reserve. Qed.
Lemma res_comma_eq : reserved [","; "="]%string. Proof. reserve. Qed.
Lemma res_do : reserved ["do"]%string. Proof. reserve. Qed.
Lemma res_then : reserved ["then"]%string. Proof. reserve. Qed.
Lemma res_else : reserved ["else"]%string. Proof. reserve. Qed.
Lemma res_lt : reserved ["<"]%string. Proof. reserve. Qed.
Lemma not_level x k : plain_word x -> ~ level_of x k.
Proof.
  intros (N & _) (ops & s & E & I & -> & K). apply N. unfold levels in E. clear N.
  destruct (k - 1)%nat as [|[|[|[|[|[|[|[|[|[|[|[|n]]]]]]]]]]]]; cbn in E; try discriminate E; try (injection E as <-; cbn in I; repeat destruct I as [<-|I]; try contradiction; vm_compute; tauto).
  destruct n; discriminate E.
Qed.
Lemma next_like l r r' : reserved l -> like_ts r r' -> (next_is l r <-> next_is l r').
Proof.
  intros R F. destruct F as [|(t & n) (t' & n') r r' (_ & [E|(x & x' & E1 & E2 & H)]) F]; cbn in *; [tauto|subst; tauto|]. subst. apply HW in H. destruct H as (A & B). split; intros I; exfalso; [exact (not_reserved x l A R I)|exact (not_reserved x' l B R I)].
Qed.
Lemma past_like vl r r' : like_ts r r' -> (past vl r <-> past (shift vl) r').
Proof. intros F. destruct vl as [l|]; cbn; [|tauto]. destruct F as [|(t & n) (t' & n') r r' (E & _) F]; cbn in *; [tauto|]. subst. lia. Qed.
Lemma line_like l r r' : like_ts r r' -> (same_line l r <-> same_line (l + d) r').
Proof. intros F. destruct F as [|(t & n) (t' & n') r r' (E & _) F]; cbn in *; [tauto|]. subst. lia. Qed.
Lemma open_like e : forall e', like_ex e e' -> open_end e' -> open_end e.
Proof. induction e; intros e' L; destruct e'; cbn in L; try contradiction; cbn; try tauto; pairs; eauto. Qed.
Lemma follow_like e e' r r' : like_ex e e' -> like_ts r r' -> follow lang e r -> follow lang e' r'.
Proof.
  intros L F H. destruct F as [|(t & n) (t' & n') r r' (_ & [E|(x & x' & E1 & E2 & H')]) F]; cbn in *; [exact I| |].
  - subst t'. destruct t; [|exact I]. destruct H as (A & B). split; [exact A|]. intros O. apply B. eapply open_like; eauto.
  - subst. apply HW in H'. destruct H' as (_ & W). split; [intros k K; destruct (not_level _ _ W K)|]. intros _. split; [|discriminate]. exact (not_reserved x' suffixes W res_suffixes).
Qed.
Lemma follow_list_like es : forall es' r r', like_exs es es' -> like_ts r r' -> follow_list lang es r -> follow_list lang es' r'.
Proof.
  induction es as [|e es IH]; intros [|e' es'] r r' L F H; cbn in L; try contradiction; [exact I|]. destruct L as (L1 & L2).
  destruct es as [|e2 es], es' as [|e2' es']; cbn in L2; try contradiction.
  - destruct H as (A & B). split; [eapply follow_like; eauto|]. rewrite <- (next_like _ r r' res_comma F). exact B.
  - exact (IH (XCons e2' es') r r' L2 F H).
Qed.
Lemma alone_like r r' : like_ts r r' -> stands_alone r -> stands_alone r'.
Proof.
  intros F (A & B). split; [now rewrite <- (next_like _ r r' res_comma_eq F)|]. destruct F as [|(t & n) (t' & n') r r' (_ & [E|(x & x' & E1 & E2 & H')]) F]; cbn in *; [exact I| |]; subst; auto.
Qed.
Lemma bare_like vl r r' : like_ts r r' -> bare_return vl r -> bare_return (shift vl) r'.
Proof. intros F [H|H]; [left; now apply (next_like _ r r' res_semi F)|right; now apply (past_like vl r r' F)]. Qed.

Definition moves (A B : rule) : Prop := forall ts rest, A ts rest -> forall rest', like_ts rest rest' -> exists ts', like_ts ts ts' /\ B ts' rest'.
Lemma moves_tk t : moves (tk t) (tk t).
Proof. intros ts rest (l & ->) rest' _. exists [(t, l + d)%Z]. split; [|now exists (l + d)%Z]. constructor; [|constructor]. split; [reflexivity|now left]. Qed.
Lemma moves_name x x' : P x x' -> moves (name x) (name x').
Proof. intros H ts rest (l & ->) rest' _. exists [(Tok TIdent x', l + d)%Z]. split; [|now exists (l + d)%Z]. constructor; [|constructor]. split; [reflexivity|]. right. exists x, x'. split; [reflexivity|]. split; [reflexivity|exact H]. Qed.
Lemma moves_seq A A' B B' : moves A A' -> moves B B' -> moves (A >> B) (A' >> B').
Proof.
  intros HA HB ts rest (a & b & -> & Ha & Hb) rest' F. destruct (HB b rest Hb rest' F) as (b' & Lb & Hb'). destruct (HA a (b ++ rest) Ha (b' ++ rest')) as (a' & La & Ha'); [now apply Forall2_app|].
  exists (a' ++ b'). split; [now apply Forall2_app|]. now exists a', b'.
Qed.
Lemma moves_nothing : moves nothing nothing.
Proof. intros ts rest -> rest' F. exists []. split; [constructor|reflexivity]. Qed.
Lemma moves_ahead (Q Q' : list ltok -> Prop) : (forall r r', like_ts r r' -> Q r -> Q' r') -> moves (ahead Q) (ahead Q').
Proof. intros H ts rest (-> & q) rest' F. exists []. split; [constructor|]. split; [reflexivity|eauto]. Qed.
Lemma moves_line (A A' : Z -> rule) : (forall l, moves (A l) (A' (l + d)%Z)) -> moves (fun ts rest => exists l, A l ts rest) (fun ts rest => exists l, A' l ts rest).
Proof. intros H ts rest (l & a) rest' F. destruct (H l ts rest a rest' F) as (ts' & L & a'). exists ts'. split; [exact L|]. now exists (l + d)%Z. Qed.
Lemma moves_end A A' l : moves A A' -> moves (fun ts rest => A ts rest /\ exists ts', ts = ts' ++ [(pt ")", l)]) (fun ts rest => A' ts rest /\ exists ts', ts = ts' ++ [(pt ")", l + d)%Z]).
Proof.
  intros H ts rest (a & u & ->) rest' F. destruct (H _ _ a rest' F) as (ts' & L & a'). exists ts'. split; [exact L|]. split; [exact a'|].
  apply Forall2_app_inv_l in L. destruct L as (u' & v' & L1 & L2 & ->). inversion L2 as [|? (t' & l') ? ? (E & [E2|(x & x' & E2 & _)]) L3]; subst; cbn in *; [|discriminate E2]. inversion L3. subst. now exists u'.
Qed.
Lemma moves_param p p' : like_opt p p' -> moves (param p) (param p').
Proof. destruct p, p'; cbn; try contradiction; intros H; [now apply moves_name|apply moves_tk]. Qed.
Lemma moves_params ps ps' : Forall2 like_opt ps ps' -> moves (params ps) (params ps').
Proof.
  induction 1 as [|p p' ps ps' H F IH]; [apply moves_nothing|]. destruct F as [|q q' ps ps' H' F]; [now apply moves_param|]. cbn [params] in *. apply moves_seq; [now apply moves_param|]. apply moves_seq; [apply moves_tk|exact IH].
Qed.
Lemma moves_names xs xs' : Forall2 P xs xs' -> moves (names xs) (names xs').
Proof.
  induction 1 as [|p p' ps ps' H F IH]; [apply moves_nothing|]. destruct F as [|q q' ps ps' H' F]; [now apply moves_name|]. cbn [names] in *. apply moves_seq; [now apply moves_name|]. apply moves_seq; [apply moves_tk|exact IH].
Qed.
Lemma moves_var x x' : like_var x x' -> moves (var x) (var x').
Proof. intros (H & E). unfold var. rewrite <- E. destruct (snd x); repeat apply moves_seq; try apply moves_tk; now apply moves_name. Qed.
Lemma moves_vars xs xs' : Forall2 like_var xs xs' -> moves (vars xs) (vars xs').
Proof.
  induction 1 as [|p p' ps ps' H F IH]; [apply moves_nothing|]. destruct F as [|q q' ps ps' H' F]; [now apply moves_var|]. cbn [vars] in *. apply moves_seq; [now apply moves_var|]. apply moves_seq; [apply moves_tk|exact IH].
Qed.
Lemma moves_dotted xs xs' : Forall2 P xs xs' -> moves (dotted xs) (dotted xs').
Proof. induction 1 as [|p p' ps ps' H F IH]; [apply moves_nothing|]. cbn [dotted]. apply moves_seq; [apply moves_tk|]. apply moves_seq; [now apply moves_name|exact IH]. Qed.
Lemma moves_separated s : moves (separated s) (separated s).
Proof. destruct s; [apply moves_tk|apply moves_nothing]. Qed.
Lemma last_attr xs xs' : Forall2 like_var xs xs' -> snd (last xs ([], None)) = snd (last xs' ([], None)).
Proof. induction 1 as [|x x' xs xs' (_ & E) F IH]; [reflexivity|]. destruct F; [exact E|exact IH]. Qed.

Ltac mv := repeat first [assumption | apply moves_seq | apply moves_tk | apply moves_nothing | apply moves_separated
  | apply moves_name; assumption | apply moves_params; assumption | apply moves_names; assumption | apply moves_vars; assumption | apply moves_dotted; assumption].
Definition else_lay (vl : option Z) (e : els) : rule := match e with EElse b => lay_blk lang vl b | _ => nothing end.
Lemma like_lay :
  (forall e e', like_ex e e' -> moves (lay lang e) (lay lang e')) /\ (forall es es', like_exs es es' -> moves (lay_list lang es) (lay_list lang es')) /\
  (forall i i', like_its i i' -> moves (lay_its lang i) (lay_its lang i')) /\ (forall s s', like_st s s' -> forall vl, moves (lay_st lang vl s) (lay_st lang (shift vl) s')) /\
  (forall b b', like_blk b b' -> forall vl, moves (lay_blk lang vl b) (lay_blk lang (shift vl) b')) /\ (forall i i', like_ifs i i' -> moves (lay_ifs lang i) (lay_ifs lang i')) /\
  (forall e e', like_els e e' -> moves (lay_els lang e) (lay_els lang e') /\ forall vl, moves (else_lay vl e) (else_lay (shift vl) e')).
Proof.
  two_sided; cbn [lay lay_list lay_its lay_st lay_blk lay_ifs lay_els] in *; fold (lay lang) (lay_list lang) (lay_its lang) (lay_st lang) (lay_blk lang) (lay_ifs lang) (lay_els lang) in *; unfold word; mv.
  all: try (match goal with H : forall e', _ -> moves ?A _ |- moves ?A _ => apply H; assumption end).
  all: try (match goal with H : forall b', _ -> forall vl, moves (lay_blk lang vl ?b) _ |- moves (lay_blk lang None ?b) _ => exact (H _ ltac:(eassumption) None) end).
  all: try (match goal with H : forall b', _ -> forall vl, moves _ _ |- moves _ (_ (shift _) _) => apply H; assumption end).
  all: try (match goal with H : forall e', _ -> _ /\ _ |- moves (lay_els lang _) _ => apply H; assumption end).
  all: try (apply moves_ahead; intros r r' F; intros; eapply follow_like + eapply follow_list_like; eauto; fail).
  all: try (destruct short0; mv; eauto; fail).
  all: try (match goal with |- _ /\ _ => split; [unfold word; mv; auto|intros vl; cbn [else_lay]; mv; auto] end; match goal with H : forall b', _ -> forall vl, moves (lay_blk lang vl ?b) _ |- moves (lay_blk lang None ?b) _ => exact (H _ ltac:(eassumption) None) end; fail).
  - destruct args, es'; try (match goal with L : like_exs _ _ |- _ => destruct L end; fail); mv; auto.
  - apply moves_line. intros l. mv.
    + apply moves_end. auto.
    + apply moves_ahead. intros r r' F (A & B). split; [eapply follow_like; eauto|]. now rewrite <- (next_like _ r r' res_do F).
    + match goal with H : forall b', _ -> forall vl, moves (lay_blk lang vl ?b) _ |- moves (lay_blk lang _ ?b) _ => exact (H _ ltac:(eassumption) (Some l)) end.
    + apply moves_ahead. intros r r' F. now rewrite (line_like l r r' F).
  - destruct step, step0; try (match goal with L : like_exs _ _ |- _ => destruct L end; fail); mv; auto.
  - destruct es, es0; try (match goal with L : like_exs _ _ |- _ => destruct L end; fail); mv; auto.
    + apply moves_ahead. apply bare_like.
    + apply moves_ahead. intros r r' F. now rewrite (past_like vl r r' F).
    + apply moves_ahead. intros r r' F Q. eapply follow_list_like; [|exact F|exact Q]. assumption.
  - destruct es, es0; try (match goal with L : like_exs _ _ |- _ => destruct L end; fail); mv; auto.
    + apply moves_ahead. intros r r' F (A & B). split; [now rewrite <- (next_like _ r r' res_comma_eq F)|]. intros E1 E2. rewrite <- (next_like _ r r' res_lt F). apply B; [exact E1|]. now rewrite (last_attr xs xs0).
    + apply moves_ahead. intros r r' F Q. eapply follow_list_like; [|exact F|exact Q]. assumption.
  - destruct meth, meth0; cbn in *; try contradiction; mv.
  - apply moves_ahead. intros r r' F (A & B & C & D). split; [eapply follow_list_like; eauto|]. split; [eapply alone_like; eauto|]. split; [now rewrite <- (next_like _ r r' res_suffixes F)|].
    destruct F as [|(t & n) (t' & n') r r' (_ & [E|(x & x' & E1 & E2 & H')]) F]; cbn in *; [exact I| |]; subst; [auto|discriminate].
  - apply moves_ahead. intros r r' F (A & B). split; [eapply follow_like; eauto|eapply alone_like; eauto].
  - apply moves_ahead. intros r r' F. rewrite (next_like _ r r' res_closers F), (past_like vl r r' F). intros [->|[Q|Q]]; auto. inversion F. auto.
  - apply moves_ahead. intros r r' F. now rewrite (past_like vl r r' F).
  - apply moves_line. intros l. mv.
    + apply moves_end. auto.
    + apply moves_ahead. intros r r' F (A & B & C). split; [eapply follow_like; eauto|]. now rewrite <- (next_like _ r r' res_then F), <- (next_like _ r r' res_do F).
    + match goal with H : forall b', _ -> forall vl, moves (lay_blk lang vl ?b) _ |- moves (lay_blk lang _ ?b) _ => exact (H _ ltac:(eassumption) (Some l)) end.
    + match goal with H : forall e', like_els e e' -> _, L : like_els e e0 |- _ => destruct (H _ L) as (_ & Q); specialize (Q (Some l)) end.
      destruct e, e0; cbn in *; try contradiction; try (apply moves_ahead; intros r r' F; now rewrite (line_like l r r' F), (next_like _ r r' res_else F)).
      mv. intros ts rest -> rest' F. exists [(kw "else", l + d)%Z]. split; [|reflexivity]. constructor; [|constructor]. split; [reflexivity|now left].
    + apply moves_ahead. intros r r' F. now rewrite (line_like l r r' F).
Qed.

(** A program with other names, its tokens on other lines. *)
Lemma like_program b b' ts : like_blk b b' -> program lang b ts -> exists ts', like_ts ts ts' /\ program lang b' ts'.
Proof.
  intros L (W & Y). destruct like_wf as (_ & _ & _ & _ & Hw & _). destruct like_lay as (_ & _ & _ & _ & Hl & _).
  destruct (Hl _ _ L None ts [] Y []) as (ts' & F & Y'); [constructor|]. exists ts'. split; [exact F|]. split; [exact (Hw _ _ L W)|exact Y'].
Qed.
End Like.
