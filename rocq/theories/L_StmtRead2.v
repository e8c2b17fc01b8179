(** The tokens of a program are read back as that program: statements. *)
From Coq Require Import String List ZArith Lia Bool.
From Verif Require Import M_Base L_Util M_Fold M_Token M_Expr S_Expr L_Expr L_ExprSound L_ExprPrint M_Stmt S_Stmt L_Stmt L_StmtEq L_StmtRead.
Import ListNotations.
Open Scope Z_scope.

Section Read2.
Context (lang : language).
Notation p_ex := (p_ex lang).
Notation p_list := (p_list lang).
Notation p_fun := (p_fun lang).
Notation p_if := (p_if lang).
Notation p_stmt := (p_stmt lang).
Notation p_blk := (p_blk lang).
Notation wf := (wf lang).
Notation wf_exs := (wf_exs lang).
Notation wf_its := (wf_its lang).
Notation wf_st := (wf_st lang).
Notation wf_blk := (wf_blk lang).
Notation wf_ifs := (wf_ifs lang).
Notation wf_els := (wf_els lang).
Notation lay := (lay lang).
Notation lay_list := (lay_list lang).
Notation lay_its := (lay_its lang).
Notation lay_st := (lay_st lang).
Notation lay_blk := (lay_blk lang).
Notation lay_ifs := (lay_ifs lang).
Notation lay_els := (lay_els lang).
Notation reads := (reads lang).
Notation reads_list := (reads_list lang).
Notation reads_its := (reads_its lang).
Notation reads_fun := (reads_fun lang).
Opaque M_Stmt.p_ex M_Stmt.p_core M_Stmt.p_loop M_Stmt.p_args M_Stmt.p_list M_Stmt.p_its M_Stmt.p_fun M_Stmt.p_if M_Stmt.p_stmt M_Stmt.p_blk.

(** ** What comes next *)
Lemma next_acc s l (rest : list ltok) : ~ next_is l rest -> In s l -> acc s rest = None.
Proof.
  destruct rest as [|[[ty v|] ln] rest]; try easy. cbn [next_is acc]. intros N I. destruct (zeqb_list v (asc s)) eqn:E; [|easy]. apply zeqb_sound in E. subst. destruct N. now apply in_map.
Qed.
Lemma past_beyond vl rest : beyond vl rest = true <-> past vl rest.
Proof. unfold beyond, past. destruct vl as [l|]; [|easy]. destruct rest as [|[t l'] rest]; [easy|]. apply Z.ltb_lt. Qed.
Lemma past_not vl rest : ~ past vl rest -> beyond vl rest = false.
Proof. intros N. destruct (beyond vl rest) eqn:E; [|easy]. now apply past_beyond in E. Qed.
Lemma line_same l rest : on_line l rest = true <-> same_line l rest.
Proof. unfold on_line, same_line. destruct rest as [|[t l'] rest]; [easy|]. apply Z.eqb_eq. Qed.
Lemma nested_line b l rest : (b = true <-> same_line l rest) <-> on_line l rest = b.
Proof.
  rewrite <- line_same. destruct (on_line l rest), b; split; intros H; try easy.
  - symmetry. now apply H.
  - now apply H.
Qed.
Lemma prev_app a (t : ltok) r : prev_tok ((a ++ [t]) ++ r) r = Some t.
Proof.
  unfold prev_tok. rewrite <- app_assoc. cbn [app]. rewrite app_length. cbn [length].
  replace (length a + S (length r) - length r - 1)%nat with (length a) by lia. rewrite nth_error_app2 by lia. now rewrite Nat.sub_diag.
Qed.

(** ** Names and parameters *)
Lemma var_reads attrs x ts rest : attr_ok lang x -> (snd x <> None -> attrs = true) -> var x ts rest -> (attrs = true -> snd x = None -> ~ next_is ["<"]%string rest) ->
  p_var attrs (ts ++ rest) = Ok (x, rest).
Proof.
  destruct x as [x [a|]]; unfold var, p_var; cbn [fst snd].
  - intros (P & A & _) At (a1 & b1 & -> & (l & ->) & (a2 & b2 & -> & (l2 & ->) & (a3 & b3 & -> & (l3 & ->) & (l4 & ->)))) _. cbn [app idt bind]. rewrite At by easy. rewrite acc_word.
    destruct A as [->| ->]; cond; rewrite req_word; reflexivity.
  - intros (P & _) _ (l & ->) N. cbn [app idt bind]. destruct attrs; [|reflexivity]. rewrite (next_acc "<" ["<"]%string); [reflexivity|now apply N|now left].
Qed.
Lemma vars_reads attrs xs ts rest : xs <> [] -> Forall (attr_ok lang) xs -> (forall x, In x xs -> snd x <> None -> attrs = true) -> vars xs ts rest -> ~ next_is [","]%string rest ->
  (attrs = true -> snd (last xs ([], None)) = None -> ~ next_is ["<"]%string rest) -> runs (fun f => p_vars f attrs (ts ++ rest)) (xs, rest).
Proof.
  intros Ne F. revert ts. induction F as [|x xs A F IH]; [easy|]. intros ts At L N1 N2. apply runs_step. eapply runs_ext; [intros m; reflexivity|]. cbn [p_vars]. destruct xs as [|y xs].
  - cbn [vars] in L. rewrite (var_reads attrs x ts rest A (At x (or_introl eq_refl)) L N2). cbn [bind]. rewrite (next_acc "," [","]%string) by (easy || now left). apply runs_const.
  - destruct L as (a & b & -> & La & (a2 & b2 & -> & (l & ->) & Lb)). rewrite <- app_assoc. cbn [app]. cbn [app] in La.
    rewrite (var_reads attrs x a _ A (At x (or_introl eq_refl)) La). 2:{ intros _ _ [E|[]]. vm_compute in E. discriminate E. }
    cbn [bind]. rewrite acc_word. eapply (runs_bind (fun m => p_vars m attrs _) (y :: xs, rest)); [|apply runs_const].
    apply IH; try easy. intros z I. apply At. now right.
Qed.
Lemma names_vars xs ts rest : names xs ts rest -> vars (map (fun x => (x, None)) xs) ts rest.
Proof.
  revert ts. induction xs as [|x [|y xs] IH]; [easy..|]. intros ts (a & b & -> & La & (a2 & b2 & -> & Lc & Lb)).
  exists a, (a2 ++ b2). split; [easy|]. split; [exact La|]. exists a2, b2. split; [easy|]. split; [exact Lc|]. now apply IH.
Qed.
Lemma names_reads xs ts rest : xs <> [] -> Forall plain_word xs -> names xs ts rest -> ~ next_is [","]%string rest ->
  runs (fun f => p_vars f false (ts ++ rest)) (map (fun x => (x, None)) xs, rest).
Proof.
  intros Ne F L N. apply vars_reads; try easy.
  - intros E. now apply map_eq_nil in E.
  - apply Forall_map. apply (Forall_impl _ (P := plain_word)); [|easy]. intros x P. now split.
  - intros x I. apply in_map_iff in I as (y & <- & _). easy.
  - now apply names_vars.
Qed.
Lemma names_back xs : map fst (map (fun x : list Z => (x, @None (list Z))) xs) = xs.
Proof. rewrite map_map. cbn. apply map_id. Qed.
Lemma param_reads p ts rest : param_ok p -> param p ts rest -> p_param (ts ++ rest) = Ok (p, rest).
Proof.
  destruct p as [x|]; intros P (l & ->); unfold p_param; cbn [app]; [|now rewrite acc_word].
  rewrite (acc_hd "..." ["..."]%string); [reflexivity|apply plain_hd; [easy|apply existsb_in; reflexivity]|now left].
Qed.
Lemma params_reads ps ts rest : Forall param_ok ps -> (word "(" >> params ps >> word ")") ts rest -> runs (fun f => p_params f (ts ++ rest)) (ps, rest).
Proof.
  intros F (a & b & -> & (l & ->) & (a2 & b2 & -> & L & (l2 & ->))). cbn [app]. unfold p_params. rewrite req_word. cbn [bind]. rewrite <- app_assoc. cbn [app]. destruct ps as [|p ps].
  - cbn [params] in L. red in L. subst a2. cbn [app]. rewrite acc_word. apply runs_const.
  - assert (H : runs (fun m => p_more_params m (a2 ++ (op_tok (asc ")"), l2) :: rest)) (p :: ps, rest)).
    { revert p a2 F L. induction ps as [|p' ps IH]; intros p a2 F L; apply runs_step; (eapply runs_ext; [intros m; reflexivity|]); cbn [p_more_params]; inversion_clear F as [|? ? Pp F'].
      - cbn [params] in L. rewrite (param_reads p) by easy. cbn [bind]. rewrite acc_word. apply runs_const.
      - destruct L as (c & d & -> & Lc & (c2 & d2 & -> & (l3 & ->) & Ld)). rewrite <- app_assoc. cbn [app]. rewrite (param_reads p) by easy. cbn [bind].
        rewrite acc_other by reflexivity. rewrite req_word. cbn [bind]. eapply (runs_bind (fun m => p_more_params m _) (p' :: ps, rest)); [|apply runs_const]. now apply IH. }
    match goal with |- context [acc ")" ?x] => enough (Ea : acc ")" x = None) by (rewrite Ea; exact H) end. inversion_clear F as [|? ? Pp _].
    assert (Lp : exists c d r, a2 = c ++ d /\ param p c r).
    { destruct ps; [exists a2, [], ((op_tok (asc ")"), l2) :: rest); now rewrite app_nil_r|]. destruct L as (c & d & -> & Lc & _). now exists c, d, ((d ++ [(op_tok (asc ")"), l2)] ++ rest)). }
    destruct Lp as (c & d & r & -> & Lp). destruct p as [x|]; destruct Lp as (l3 & ->); cbn [app].
    + apply (acc_hd ")" [")"]%string); [|now left]. apply plain_hd; [easy|apply existsb_in; reflexivity].
    + now apply acc_other.
Qed.
Lemma params_any ps ts r r' : params ps ts r -> params ps ts r'.
Proof.
  revert ts. induction ps as [|p ps IH]; [easy|]. intros ts. destruct ps as [|p' ps].
  - now destruct p.
  - intros (a & b & -> & La & (a2 & b2 & -> & Lc & Lb)). exists a, (a2 ++ b2). split; [easy|]. split; [now destruct p|]. exists a2, b2. split; [easy|]. split; [exact Lc|]. now apply IH.
Qed.
Lemma params_parts ps a a2 a3 r ra r2 r3 : Forall param_ok ps -> word "(" a ra -> params ps a2 r2 -> word ")" a3 r3 -> runs (fun f => p_params f (a ++ a2 ++ a3 ++ r)) (ps, r).
Proof.
  intros F La Lp Lc. pose proof (params_reads ps (a ++ a2 ++ a3) r F) as H. rewrite <- !app_assoc in H. apply H. exists a, (a2 ++ a3). split; [easy|]. split; [exact La|]. exists a2, a3. split; [easy|].
  split; [|exact Lc]. now apply (params_any _ _ r2).
Qed.
Lemma fun_reads ps b : Forall param_ok ps -> (forall ts rest, lay_blk None b ts rest -> runs (fun f => p_blk f None (ts ++ rest)) (b, rest)) -> reads_fun ps b.
Proof.
  intros F R ts rest (a & b1 & -> & La & (a2 & b2 & -> & Lp & (a3 & b3 & -> & Lc & (a4 & b4 & -> & Lb & (l & ->))))).
  apply runs_step. eapply runs_ext; [intros m; apply eq_fun|]. rewrite <- !app_assoc.
  eapply (runs_bind (fun m => p_params m _) (ps, a4 ++ [(op_tok (asc "end"), l)] ++ rest)).
  { eapply params_parts; eassumption. }
  cbn beta iota. eapply (runs_bind (fun m => p_blk m None _)); [now apply R|]. cbn beta iota. cbn [app]. rewrite req_word. apply runs_const.
Qed.
Lemma path_reads xs ts rest : Forall plain_word xs -> dotted xs ts rest -> ~ next_is ["."]%string rest -> runs (fun f => p_path f (ts ++ rest)) (xs, rest).
Proof.
  intros F. revert ts. induction F as [|x xs P F IH]; intros ts L N; apply runs_step; (eapply runs_ext; [intros m; reflexivity|]); cbn [p_path].
  - cbn [dotted] in L. red in L. subst ts. cbn [app]. rewrite (next_acc "." ["."]%string) by (easy || now left). apply runs_const.
  - destruct L as (a & b & -> & (l & ->) & (a2 & b2 & -> & (l2 & ->) & L)). cbn [app]. rewrite acc_word. cbn [idt bind].
    eapply (runs_bind (fun m => p_path m _)); [now apply IH|]. apply runs_const.
Qed.

(** ** How a statement begins *)
Lemma callable_not_fun e : callable_ex e -> ~ fun_first e.
Proof. now destruct e. Qed.
Lemma plain_not_kw v s : plain_word v -> is_keyword (asc s) = true -> ~ In v (map asc [s]).
Proof. intros (_ & K) E [<-|[]]. congruence. Qed.
Lemma lay_not_fun e : wf e -> ~ fun_first e -> forall ts rest, lay e ts rest -> hd_not ["function"]%string (map fst ts).
Proof.
  assert (Happ : forall a b : list ltok, begins a -> hd_not ["function"]%string (map fst a) -> hd_not ["function"]%string (map fst (a ++ b))).
  { intros a b (N & _). now destruct a. }
  induction e; cbn [S_Stmt.wf S_Stmt.lay fun_first]; intros W Nf ts rest L.
  - destruct L as (l & ->). destruct t as [[] v|]; try easy; cbn [constant] in W; cbn [map fst hd_not]; try (now apply (plain_not_kw v "function")).
    destruct W as [->|[->| ->]]; now apply (not_in _ ["function"%string]).
  - destruct L as (l & ->). now apply (not_in _ ["function"%string]).
  - destruct L as (l & ->). now apply (plain_not_kw name "function").
  - easy.
  - destruct L as (a & b & -> & (l & ->) & _). now apply (not_in _ ["function"%string]).
  - destruct L as (a & b & -> & (l & ->) & _). cbn [app map fst]. unfold op_tok. cbn [hd_not]. apply (not_in _ ["function"%string]).
    destruct W as ([I|(-> & _)] & _); [|reflexivity]. cbn [map In] in I. repeat (destruct I as [<-|I]; [reflexivity|]). easy.
  - destruct L as (a & b & -> & L & _). destruct W as (_ & W & _). apply Happ; [now apply (lay_begins lang _ W _ _ L)|]. now apply (IHe1 W Nf _ _ L).
  - destruct L as (a & b & -> & L & _). destruct W as (C & W & _). apply Happ; [now apply (lay_begins lang _ W _ _ L)|]. now apply (IHe W (callable_not_fun _ C) _ _ L).
  - destruct L as (a & b & -> & L & _). destruct W as (C & W & _). apply Happ; [now apply (lay_begins lang _ W _ _ L)|]. now apply (IHe1 W (callable_not_fun _ C) _ _ L).
  - destruct L as (a & b & -> & L & _). destruct W as (C & W & _). apply Happ; [now apply (lay_begins lang _ W _ _ L)|]. now apply (IHe W (callable_not_fun _ C) _ _ L).
  - destruct L as (a & b & -> & L & _). destruct W as (C & W & _). apply Happ; [now apply (lay_begins lang _ W _ _ L)|]. now apply (IHe W (callable_not_fun _ C) _ _ L).
  - destruct L as (a & b & -> & (l & ->) & _). now apply (not_in _ ["function"%string]).
Qed.
Lemma call_not_fun e : is_call e -> ~ fun_first e.
Proof. now destruct e. Qed.
(** a statement that begins with an expression *)
Definition p_tail f e (ts : list ltok) : res (st * list ltok) :=
  match ts with
  | (Tok ty w, _) :: ts' =>
      if zeqb_list w (asc ",") then
        '(more, ts) <- p_list f ts' ;; ts <- req "=" ts ;;
        '(es, ts) <- p_list f ts ;; Ok (SAssign (XCons e more) es, ts)
      else if zeqb_list w (asc "=") then
        '(es, ts) <- p_list f ts' ;; Ok (SAssign (XCons e XNil) es, ts)
      else if match ty with TPunct => ends_eq w | _ => false end then
        '(e', ts) <- p_ex f None ts' ;; Ok (SOp e w e', ts)
      else match e with XCall _ _ _ | XMeth _ _ _ _ => Ok (SCall e, ts) | _ => Err ECheck end
  | _ => match e with XCall _ _ _ | XMeth _ _ _ _ => Ok (SCall e, ts) | _ => Err ECheck end
  end.
Lemma stmt_expr f vl ts : begins ts -> hd_not ["function"]%string (map fst ts) -> p_stmt (S f) vl ts = '(e, ts) <- p_ex f None ts ;; p_tail f e ts.
Proof.
  intros (N & B) F. rewrite eq_stmt. destruct ts as [|[[ty v|] l] ts]; [easy| |easy]. cbn [map fst] in *.
  assert (K : forall s, In s ("function" :: noexpr)%string -> zeqb_list v (asc s) = false).
  { intros s I. apply zeqb_neq. intros ->. destruct I as [<-|I]; [apply F; now left|]. apply B. now apply in_map. }
  rewrite !K by (cbv [noexpr]; cbn [In]; tauto). reflexivity.
Qed.
Lemma expr_starts e ts rest vl r : wf e -> ~ fun_first e -> lay e ts rest -> forall more : list ltok, runs (fun f => '(e, ts) <- p_ex f None (ts ++ more) ;; p_tail f e ts) r -> runs (fun f => p_stmt f vl (ts ++ more)) r.
Proof.
  intros W F L more R. apply runs_step. pose proof (lay_begins lang _ W _ _ L) as B. eapply runs_ext; [|exact R]. intros m. apply stmt_expr; [now apply begins_app|].
  pose proof (lay_not_fun _ W F _ _ L) as H. destruct ts; [now destruct B|exact H].
Qed.

(** ** Reading back *)
Definition reads_st (s : st) : Prop := forall vl ts rest, lay_st vl s ts rest -> runs (fun f => p_stmt f vl (ts ++ rest)) (s, rest).
Definition reads_blk (b : blk) : Prop := forall vl ts rest, lay_blk vl b ts rest -> runs (fun f => p_blk f vl (ts ++ rest)) (b, rest).
Definition reads_ifs (i : ifs) : Prop := forall ts rest, lay_ifs i ts rest -> runs (fun f => p_if f (ts ++ rest)) (i, rest).
Definition reads_els (e : els) : Prop := match e with ENone => True | EElse b => reads_blk b | EElif i => reads_ifs i end.

Ltac norm := repeat (progress (cbn [app] in *; rewrite <- ?app_assoc in *; rewrite ?app_nil_r in *)).
Ltac lay_split := repeat match goal with
  | H : (_ >> _) ?ts _ |- _ => let a := fresh "a" in let b := fresh "b" in let H1 := fresh "L" in let H2 := fresh "L" in destruct H as (a & b & H & H1 & H2); subst ts
  | H : word _ ?ts _ |- _ => let l := fresh "l" in destruct H as (l & H); subst ts
  | H : name _ ?ts _ |- _ => let l := fresh "l" in destruct H as (l & H); subst ts
  | H : tk _ ?ts _ |- _ => let l := fresh "l" in destruct H as (l & H); subst ts
  | H : nothing ?ts _ |- _ => red in H; subst ts
  | H : ahead _ ?ts _ |- _ => let H1 := fresh "A" in destruct H as (H & H1); subst ts
  end; norm.
Ltac start := apply runs_step; eapply runs_ext; [intros m; rewrite eq_stmt; unfold op_tok at 1; cond; reflexivity|]; cbn beta iota.
Ltac go H := eapply runs_bind; [apply H|cbn beta iota].

Lemma read_blk_end b s ts l rest : reads_blk b -> lay_blk None b ts ((op_tok (asc s), l) :: rest) -> runs (fun f => p_blk f None (ts ++ (op_tok (asc s), l) :: rest)) (b, (op_tok (asc s), l) :: rest).
Proof. intros R L. now apply R. Qed.

Lemma rd_semi : reads_st SSemi.
Proof. intros vl ts rest L. rewrite eq_lay_st_l in L; cbv iota in L. lay_split. start. apply runs_const. Qed.
Lemma rd_break : reads_st SBreak.
Proof. intros vl ts rest L. rewrite eq_lay_st_l in L; cbv iota in L. lay_split. start. apply runs_const. Qed.
Lemma rd_goto x : reads_st (SGoto x).
Proof. intros vl ts rest L. rewrite eq_lay_st_l in L; cbv iota in L. lay_split. start. cbn [idt bind]. apply runs_const. Qed.
Lemma rd_label x : reads_st (SLabel x).
Proof. intros vl ts rest L. rewrite eq_lay_st_l in L; cbv iota in L. lay_split. start. cbn [idt bind]. rewrite req_word. apply runs_const. Qed.
Lemma rd_do b : reads_blk b -> reads_st (SDo b).
Proof.
  intros R vl ts rest L. rewrite eq_lay_st_l in L; cbv iota in L. lay_split. start. eapply (runs_bind (fun m => p_blk m None _)); [now apply R|]. cbn beta iota. rewrite req_word. apply runs_const.
Qed.
Lemma rd_if i : reads_ifs i -> reads_st (SIf i).
Proof. intros R vl ts rest L. rewrite eq_lay_st_l in L; cbv iota in L. lay_split. start. eapply (runs_bind (fun m => p_if m _)); [now apply R|]. apply runs_const. Qed.
Lemma rd_while c b : wf c -> reads c -> reads_blk b -> reads_st (SWhile c b).
Proof.
  intros W R Rb vl ts rest L. rewrite eq_lay_st_l in L; cbv iota in L. lay_split. start.
  eapply (runs_bind (fun m => p_ex m None _)); [apply (whole_word lang c _ "do"); easy|]. cbn beta iota. rewrite acc_word.
  eapply (runs_bind (fun m => p_blk m None _)); [now apply Rb|]. cbn beta iota. rewrite req_word. apply runs_const.
Qed.
Lemma rd_while_short nested c b : wf c -> reads c -> reads_blk b -> reads_st (SWhileShort nested c b).
Proof.
  intros W R Rb vl ts rest (l & a & b1 & -> & (l0 & ->) & (tc & b2 & -> & (Lc & tc' & Etc) & (a3 & b3 & -> & (-> & Fo & Nd) & (tb & b4 & -> & Lb & (-> & Ne))))). rewrite !app_nil_r in *.
  apply nested_line in Ne. cbn [app] in *. rewrite <- app_assoc in *. cbn [app] in *. start. destruct (follow_stops _ _ _ Fo) as (F1 & F2).
  eapply (runs_bind (fun m => p_ex m None _)); [exact (whole_reads_ex lang c _ _ W R Lc F1 F2)|]. cbn beta iota. rewrite (next_acc "do" ["do"]%string) by (easy || now left).
  rewrite Etc, prev_app. cbn beta iota. unfold pt. cond. eapply (runs_bind (fun m => p_blk m (Some l) _)); [now apply Rb|]. cbn beta iota. rewrite Ne. apply runs_const.
Qed.
Lemma rd_repeat b c : wf c -> reads c -> reads_blk b -> reads_st (SRepeat b c).
Proof.
  intros W R Rb vl ts rest L. rewrite eq_lay_st_l in L; cbv iota in L. lay_split. start. eapply (runs_bind (fun m => p_blk m None _)); [now apply Rb|]. cbn beta iota. rewrite req_word. cbn [bind].
  destruct (follow_stops _ _ _ A) as (F1 & F2). eapply (runs_bind (fun m => p_ex m None _)); [exact (whole_reads_ex lang c _ _ W R L2 F1 F2)|]. apply runs_const.
Qed.

Lemma word_next s s' l rest : zeqb_list (asc s') (asc s) = false -> ~ next_is [s] ((op_tok (asc s'), l) :: rest).
Proof. intros N [E|[]]. rewrite <- E, zeqb_list_refl in N. discriminate N. Qed.
Lemma list_word es s ts l rest : es <> XNil -> reads_list es -> lay_list es ts ((op_tok (asc s), l) :: rest) -> ends_word s ->
  runs (fun f => p_list f (ts ++ (op_tok (asc s), l) :: rest)) (es, (op_tok (asc s), l) :: rest).
Proof. intros N (R & _) L E. apply R; [easy|easy|]. now apply follow_list_word. Qed.
Lemma rd_for x a z step b : wf_st (SFor x a z step b) -> reads a -> reads z -> reads_list step -> reads_blk b -> reads_st (SFor x a z step b).
Proof.
  intros W Ra Rz (_ & Rs) Rb vl ts rest L. rewrite eq_wf_st_l in W. destruct W as (P & Wa & Wz & Ws & One & Wb). rewrite eq_lay_st_l in L; cbv iota in L.
  destruct step as [|e [|? ?]]; [| |easy]; lay_split; start; cbn [idt bind]; cond; rewrite req_word; cbn [bind].
  - eapply (runs_bind (fun m => p_ex m None _)); [apply (whole_word lang a _ ","); easy|]. cbn beta iota. rewrite req_word. cbn [bind].
    eapply (runs_bind (fun m => p_ex m None _)); [apply (whole_word lang z _ "do"); easy|]. cbn beta iota. rewrite acc_other by reflexivity. cbn [bind]. rewrite req_word. cbn [bind].
    eapply (runs_bind (fun m => p_blk m None _)); [now apply Rb|]. cbn beta iota. rewrite req_word. apply runs_const.
  - eapply (runs_bind (fun m => p_ex m None _)); [apply (whole_word lang a _ ","); easy|]. cbn beta iota. rewrite req_word. cbn [bind].
    eapply (runs_bind (fun m => p_ex m None _)); [apply (whole_word lang z _ ","); easy|]. cbn beta iota. rewrite acc_word. match goal with H : S_Stmt.lay_list _ _ _ _ |- _ => rewrite eq_lay_list_l in H end. rewrite eq_wf_exs_l in Ws.
    eapply (runs_bind (fun m => '(e, ts) <- p_ex m None _ ;; Ok (XCons e XNil, ts))).
    { eapply (runs_bind (fun m => p_ex m None _)); [apply (whole_word lang e _ "do"); easy|]. apply runs_const. }
    cbn beta iota. rewrite req_word. cbn [bind]. eapply (runs_bind (fun m => p_blk m None _)); [now apply Rb|]. cbn beta iota. rewrite req_word. apply runs_const.
Qed.
Lemma names_second xs ts rest l r : xs <> [] -> names xs ts rest -> match ts ++ (op_tok (asc "in"), l) :: r with _ :: (Tok _ w, _) :: _ => zeqb_list w (asc "=") | _ => false end = false.
Proof.
  destruct xs as [|x [|y xs]]; [easy| |]; intros _ L.
  - destruct L as (l2 & ->). cbn [app]. unfold op_tok. now cond.
  - destruct L as (a & b & -> & (l2 & ->) & (a2 & b2 & -> & (l3 & ->) & _)). cbn [app]. unfold op_tok. now cond.
Qed.
Lemma rd_for_in xs es b : wf_st (SForIn xs es b) -> reads_list es -> reads_blk b -> reads_st (SForIn xs es b).
Proof.
  intros W Rs Rb vl ts rest L. rewrite eq_wf_st_l in W. destruct W as (N & P & Ne & We & Wb). rewrite eq_lay_st_l in L; cbv iota in L. lay_split. start.
  rewrite (names_second xs _ _ _ _ N L). eapply (runs_bind (fun m => p_vars m false _)); [apply (names_reads xs); try easy; now apply word_next|]. cbn beta iota. rewrite req_word. cbn [bind].
  eapply (runs_bind (fun m => p_list m _)); [apply (list_word es "do"); easy|]. cbn beta iota. rewrite req_word. cbn [bind].
  eapply (runs_bind (fun m => p_blk m None _)); [now apply Rb|]. cbn beta iota. rewrite req_word. cbn [bind]. rewrite names_back. apply runs_const.
Qed.
Lemma begins_not_end vl ts rest : begins ts -> ~ past vl (ts ++ rest) -> returns_nothing vl (ts ++ rest) = false.
Proof.
  intros (N & B) Np. unfold returns_nothing. rewrite (past_not _ _ Np), orb_false_r. destruct ts as [|[[ty v|] l] ts]; [easy| |easy]. cbn [app map fst hd_not] in *.
  assert (K : forall s, In s noexpr -> zeqb_list v (asc s) = false) by (intros s I; apply zeqb_neq; intros ->; apply B; now apply in_map).
  unfold block_end. cbn [map existsb]. now rewrite !K by (cbv [noexpr]; cbn [In]; tauto).
Qed.
Lemma rd_return es : wf_exs es -> reads_list es -> reads_st (SReturn es).
Proof.
  intros W R vl ts rest L. rewrite eq_lay_st_l in L; cbv iota in L. destruct es as [|e es]; lay_split; start.
  - replace (returns_nothing vl rest) with true; [apply runs_const|]. symmetry. unfold returns_nothing. destruct A as [H|H].
    + destruct rest as [|[[ty v|] l2] rest]; try easy. cbn [next_is] in H. apply orb_true_iff. left. unfold block_end. apply orb_true_iff. cbn [map In] in H. destruct H as [<-|H]; [now right|left]. apply existsb_in. exact H.
    + apply orb_true_iff. right. now apply past_beyond.
  - rewrite begins_not_end; [|now apply (lay_list_begins lang (XCons e es) _ rest)|easy]. destruct R as (R & _).
    eapply (runs_bind (fun m => p_list m _)); [now apply R|]. apply runs_const.
Qed.
Lemma vars_begin xs ts rest : xs <> [] -> Forall (attr_ok lang) xs -> vars xs ts rest -> ts <> [] /\ hd_not ["function"]%string (map fst ts).
Proof.
  assert (V : forall x ts rest, attr_ok lang x -> var x ts rest -> ts <> [] /\ hd_not ["function"]%string (map fst ts)).
  { intros [x [a|]] t r (P & _) L; unfold var in L; cbn [fst snd] in *.
    - destruct L as (c & d & -> & (l & ->) & _). split; [easy|]. now apply (plain_not_kw x "function").
    - destruct L as (l & ->). split; [easy|]. now apply (plain_not_kw x "function"). }
  destruct xs as [|x [|y xs]]; [easy| |]; intros _ F L; inversion_clear F as [|? ? A _].
  - now apply (V x _ _ A L).
  - destruct L as (a & b & -> & La & _). destruct (V x _ _ A La) as (N & H). split; [now destruct a|]. now destruct a.
Qed.
Lemma attrs_lang xs : Forall (attr_ok lang) xs -> forall x, In x xs -> snd x <> None -> negb (is_pico8 lang) = true.
Proof. rewrite Forall_forall. intros F x I N. destruct (F x I) as (_ & A). destruct (snd x); [|easy]. destruct A as (_ & ->). reflexivity. Qed.
Lemma attrs_pico : negb (is_pico8 lang) = true <-> lang = Picotron.
Proof. now destruct lang. Qed.
Lemma rd_local xs es : wf_st (SLocal xs es) -> reads_list es -> reads_st (SLocal xs es).
Proof.
  intros W R vl ts rest L. rewrite eq_wf_st_l in W. destruct W as (N & At & We). rewrite eq_lay_st_l in L; cbv iota in L. destruct es as [|e es]; lay_split; start.
  - destruct A as (A1 & A2). destruct (vars_begin xs _ _ N At L) as (Nn & H). rewrite (acc_hd "function" ["function"]%string); [|now destruct a0|now left].
    eapply (runs_bind (fun m => p_vars m _ _)).
    { apply (vars_reads _ xs); try easy; [now apply attrs_lang| |]. - intros H1. apply A1. destruct rest as [|[[ty v|] l2] rest]; try easy. cbn [next_is map In] in *. tauto. - intros E. apply A2. now apply attrs_pico. }
    cbn beta iota. rewrite (next_acc "=" [","; "="]%string) by (easy || (cbn; tauto)). apply runs_const.
  - destruct (vars_begin xs _ _ N At L) as (Nn & H). rewrite (acc_hd "function" ["function"]%string); [|now destruct a0|now left].
    eapply (runs_bind (fun m => p_vars m _ _)).
    { apply (vars_reads _ xs); try easy; [now apply attrs_lang|now apply word_next|]. intros _ _. now apply word_next. }
    cbn beta iota. rewrite acc_word. destruct R as (R & _). eapply (runs_bind (fun m => p_list m _)); [now apply R|]. apply runs_const.
Qed.
Lemma rd_fun_parts ps b l1 a2 l2 a4 r r2 l : reads_fun ps b -> params ps a2 r2 -> lay_blk None b a4 ((op_tok (asc "end"), l) :: r) ->
  runs (fun f => p_fun f ((op_tok (asc "("), l1) :: a2 ++ (op_tok (asc ")"), l2) :: a4 ++ (op_tok (asc "end"), l) :: r)) (ps, b, r).
Proof.
  intros R Lp Lb. pose proof (R ([(op_tok (asc "("), l1)] ++ a2 ++ [(op_tok (asc ")"), l2)] ++ a4 ++ [(op_tok (asc "end"), l)]) r) as H. norm. apply H.
  exists [(op_tok (asc "("), l1)], (a2 ++ [(op_tok (asc ")"), l2)] ++ a4 ++ [(op_tok (asc "end"), l)]). split; [easy|]. split; [now eexists|].
  exists a2, ([(op_tok (asc ")"), l2)] ++ a4 ++ [(op_tok (asc "end"), l)]). split; [easy|]. split; [now apply (params_any _ _ r2)|].
  exists [(op_tok (asc ")"), l2)], (a4 ++ [(op_tok (asc "end"), l)]). split; [easy|]. split; [now eexists|]. exists a4, [(op_tok (asc "end"), l)]. split; [easy|]. split; [exact Lb|]. now exists l.
Qed.
Lemma rd_local_fun x ps b : reads_fun ps b -> reads_st (SLocalFun x ps b).
Proof.
  intros R vl ts rest L. rewrite eq_lay_st_l in L; cbv iota in L. lay_split. start. rewrite acc_word. cbn [idt bind].
  eapply (runs_bind (fun m => p_fun m _) (ps, b, rest)); [|apply runs_const].
  eapply rd_fun_parts; eassumption.
Qed.
Lemma rd_fun x path meth ps b : wf_st (SFun x path meth ps b) -> reads_fun ps b -> reads_st (SFun x path meth ps b).
Proof.
  intros W R vl ts rest L. rewrite eq_wf_st_l in W. destruct W as (Px & Pp & Pm & Fp & Wb). rewrite eq_lay_st_l in L; cbv iota in L. destruct meth as [mt|]; lay_split; start; cbn [idt bind].
  - eapply (runs_bind (fun m => p_path m _)); [apply (path_reads path); try easy; now apply word_next|]. cbn beta iota. unfold p_meth. rewrite acc_word. cbn [idt bind].
    eapply (runs_bind (fun m => p_fun m _) (ps, b, rest)); [|apply runs_const]. eapply rd_fun_parts; eassumption.
  - eapply (runs_bind (fun m => p_path m _)); [apply (path_reads path); try easy; now apply word_next|]. cbn beta iota. unfold p_meth. rewrite acc_other by reflexivity. cbn [bind].
    eapply (runs_bind (fun m => p_fun m _) (ps, b, rest)); [|apply runs_const]. eapply rd_fun_parts; eassumption.
Qed.
Lemma rd_assign targets es : wf_st (SAssign targets es) -> (match targets with XCons e _ => reads e | XNil => True end) -> (match targets with XCons _ more => reads_list more | XNil => True end) -> reads_list es -> reads_st (SAssign targets es).
Proof.
  intros W Re Rm Rs vl ts rest L. rewrite eq_wf_st_l in W. destruct targets as [|e more]; [easy|]. destruct W as (Nf & We & Ne & Ws). rewrite eq_wf_exs_l in We. destruct We as (We & Wm).
  rewrite eq_lay_st_l in L; cbv iota in L. destruct L as (tt & b1 & -> & L & Lr). lay_split. rewrite eq_lay_list_l in L. destruct more as [|e2 more].
  - apply (expr_starts e _ _ _ _ We Nf L). eapply (runs_bind (fun m => p_ex m None _)); [apply (whole_word lang e _ "="); easy|]. cbn beta iota. unfold p_tail. unfold op_tok at 1. cond.
    destruct Rs as (Rs & _). eapply (runs_bind (fun m => p_list m _)); [now apply Rs|]. apply runs_const.
  - destruct L as (te & b2 & -> & L & Lm). lay_split. apply (expr_starts e _ _ _ _ We Nf L). eapply (runs_bind (fun m => p_ex m None _)); [apply (whole_word lang e _ ","); easy|]. cbn beta iota. unfold p_tail. unfold op_tok at 1. cond.
    eapply (runs_bind (fun m => p_list m _)); [apply (list_word (XCons e2 more) "="); easy|]. cbn beta iota. rewrite req_word. cbn [bind].
    destruct Rs as (Rs & _). eapply (runs_bind (fun m => p_list m _)); [now apply Rs|]. apply runs_const.
Qed.
Lemma ends_eq_spec v : ends_eq v = true <-> exists o, v = o ++ asc "=".
Proof.
  unfold ends_eq. split.
  - intros E. apply Z.eqb_eq in E. exists (removelast v). change (asc "=") with [61]. rewrite <- E. apply app_removelast_last. intros ->. discriminate E.
  - intros (o & ->). change (asc "=") with [61]. rewrite last_last. reflexivity.
Qed.
Lemma rd_op target op e : wf_st (SOp target op e) -> reads target -> reads e -> reads_st (SOp target op e).
Proof.
  intros W Rt Re vl ts rest L. rewrite eq_wf_st_l in W. destruct W as (Wt & Nf & ((o & Eo) & Neq & Nop) & We). rewrite eq_lay_st_l in L; cbv iota in L. destruct L as (tt & b1 & -> & L & Lr). lay_split.
  assert (Ee : ends_eq op = true) by (apply ends_eq_spec; now exists o).
  apply (expr_starts target _ _ _ _ Wt Nf L). eapply (runs_bind (fun m => p_ex m None _)).
  { apply (whole_reads_ex lang target); try easy.
    - intros p E El. apply lang_spec in El. destruct (prec_nat _ _ E) as (k & -> & Lk). exfalso. now apply (Nop k).
    - intros _. split; [|easy]. unfold suffix_sym. destruct (existsb (zeqb_list op) _) eqn:E; [|easy]. apply existsb_in in E. cbn [map In] in E. repeat (destruct E as [E|E]; [rewrite <- E in Ee; discriminate Ee|]). easy. }
  cbn beta iota. unfold p_tail. rewrite Ee. replace (zeqb_list op (asc ",")) with false by (symmetry; apply zeqb_neq; intros E; rewrite E in Ee; discriminate Ee).
  replace (zeqb_list op (asc "=")) with false by (symmetry; now apply zeqb_neq). destruct (follow_stops _ _ _ A) as (F1 & F2).
  eapply (runs_bind (fun m => p_ex m None _)); [exact (whole_reads_ex lang e _ _ We Re L2 F1 F2)|]. apply runs_const.
Qed.
Lemma rd_print es : wf_st (SPrint es) -> reads_list es -> reads_st (SPrint es).
Proof.
  intros W (R & _) vl ts rest L. rewrite eq_wf_st_l in W. destruct W as (Ne & We). rewrite eq_lay_st_l in L; cbv iota in L. lay_split. destruct A as (F & (S1 & S2) & Ns & Nt). start.
  eapply (runs_bind (fun m => p_list m _)); [now apply R|]. cbn beta iota. replace (goes_on rest) with false; [apply runs_const|]. symmetry.
  destruct rest as [|[[ty v|] l2] rest]; try easy. cbn [next_is goes_on] in *. apply orb_false_iff. split; [apply orb_false_iff; split|].
  - destruct (existsb _ _) eqn:E; [|easy]. apply existsb_in in E. exfalso. cbn [map In suffixes] in *. tauto.
  - now destruct ty.
  - destruct ty; try easy. destruct (ends_eq v) eqn:E; [|easy]. now apply ends_eq_spec in E.
Qed.
Lemma rd_call e : wf_st (SCall e) -> reads e -> reads_st (SCall e).
Proof.
  intros W R vl ts rest L. rewrite eq_wf_st_l in W. destruct W as (C & We). rewrite eq_lay_st_l in L; cbv iota in L. destruct L as (tt & b1 & -> & L & Lr). lay_split. destruct A as (F & (S1 & S2)).
  apply (expr_starts e _ _ _ _ We (call_not_fun _ C) L). destruct (follow_stops _ _ _ F) as (F1 & F2). eapply (runs_bind (fun m => p_ex m None _)); [exact (whole_reads_ex lang e _ _ We R L F1 F2)|].
  cbn beta iota. eapply runs_ext; [|apply runs_const]. intros m. unfold p_tail. destruct rest as [|[[ty v|] l2] rest]; [now destruct e| |now destruct e]. cbn [next_is] in S1.
  replace (zeqb_list v (asc ",")) with false by (symmetry; apply zeqb_neq; intros ->; apply S1; now left).
  replace (zeqb_list v (asc "=")) with false by (symmetry; apply zeqb_neq; intros ->; apply S1; cbn; tauto).
  assert (Q : match ty with TPunct => ends_eq v | _ => false end = false) by (destruct ty; try easy; destruct (ends_eq v) eqn:E; [now apply ends_eq_spec in E|easy]). rewrite Q. now destruct e.
Qed.

(** ** Blocks *)
Lemma st_begins vl s ts rest : wf_st s -> lay_st vl s ts rest -> ts <> [] /\ hd_not closers (map fst ts).
Proof.
  assert (K : forall s (l : Z) (ts : list ltok), existsb (zeqb_list (asc s)) (map asc closers) = false -> (op_tok (asc s), l) :: ts <> [] /\ hd_not closers (map fst ((op_tok (asc s), l) :: ts))).
  { intros w l t E. split; [easy|]. now apply not_in. }
  assert (B : forall a b : list ltok, begins a -> a ++ b <> [] /\ hd_not closers (map fst (a ++ b))).
  { intros a b (N & H). destruct a as [|t a]; [easy|]. split; [easy|]. apply (hd_sub noexpr); [|exact H]. intros x I. cbv [closers noexpr] in *. cbn [In] in *. tauto. }
  intros W L. rewrite eq_lay_st_l in L. rewrite eq_wf_st_l in W. destruct s; cbv iota in L, W;
    try (lay_split; now apply K); try (destruct es; lay_split; now apply K); try (destruct step; lay_split; now apply K).
  - destruct L as (l & L). lay_split. now apply K.
  - destruct targets as [|e more]; [easy|]. destruct W as (_ & W & _). destruct L as (a & b & -> & L & _). apply B. now apply (lay_list_begins lang (XCons e more) _ (b ++ rest)).
  - destruct W as (W & _). destruct L as (a & b & -> & L & _). apply B. now apply (lay_begins lang target W _ (b ++ rest)).
  - destruct W as (_ & W). destruct L as (a & b & -> & L & _). apply B. now apply (lay_begins lang e W _ (b ++ rest)).
Qed.
Lemma rd_bnil : reads_blk BNil.
Proof.
  intros vl ts rest L. rewrite eq_lay_blk_l in L; cbv iota in L. lay_split. apply runs_step. eapply runs_ext; [intros m; apply eq_blk|]. cbn [app]. destruct rest as [|[t l] rest]; [apply runs_const|].
  destruct (beyond vl ((t, l) :: rest)) eqn:E; [apply runs_const|]. destruct A as [A|[A|A]]; [easy| |apply past_beyond in A; congruence].
  destruct t as [ty v|]; [|easy]. cbn [next_is] in A. replace (block_end v) with true; [apply runs_const|]. symmetry. apply existsb_in. exact A.
Qed.
Lemma rd_bcons s b : wf_st s -> reads_st s -> reads_blk b -> reads_blk (BCons s b).
Proof.
  intros W Rs Rb vl ts rest L. rewrite eq_lay_blk_l in L; cbv iota in L. destruct L as (a & b1 & -> & (-> & Np) & (a2 & b2 & -> & Ls & Lb)). cbn [app] in *. apply runs_step.
  eapply runs_ext; [intros m; apply eq_blk|]. destruct (st_begins vl s a2 _ W Ls) as (N & H). rewrite <- app_assoc in *. specialize (Rs _ _ _ Ls). destruct a2 as [|[t l] a2]; [easy|]. cbn [app] in *.
  rewrite (past_not _ _ Np). cbn [map fst] in H. destruct t as [ty v|]; [|easy]. cbn [hd_not] in H.
  replace (block_end v) with false. 2:{ symmetry. destruct (block_end v) eqn:E; [|easy]. apply existsb_in in E. easy. }
  eapply (runs_bind (fun m => p_stmt m vl _)); [exact Rs|]. cbn beta iota. eapply (runs_bind (fun m => p_blk m vl _)); [now apply Rb|]. apply runs_const.
Qed.

(** ** Ifs *)
Lemma acc_then_word w l rest : w = asc "then" \/ w = asc "do" /\ lang = Pico8 -> acc_then lang ((op_tok w, l) :: rest) = Some (w, rest).
Proof. unfold acc_then. intros [->|(-> & ->)]; [now rewrite acc_word|]. rewrite acc_other by reflexivity. cbn [is_pico8]. now rewrite acc_word. Qed.
Lemma rd_long w c b e : wf_ifs (ILong w c b e) -> reads c -> reads_blk b -> reads_els e -> reads_ifs (ILong w c b e).
Proof.
  intros W R Rb Re ts rest L. rewrite eq_wf_ifs_l in W. destruct W as (Hw & Wc & Wb & We). rewrite eq_lay_ifs_l in L; cbv iota in L. rewrite eq_wf_els_l in We.
  destruct L as (a & b1 & -> & Lc & (a2 & b2 & -> & (l & ->) & (a3 & b3 & -> & Lb & Le))). norm.
  apply runs_step. eapply runs_ext; [intros m; apply eq_if|]. eapply (runs_bind (fun m => p_ex m None _) (c, (op_tok w, l) :: a3 ++ b3 ++ rest)).
  { destruct Hw as [->|(-> & _)]; [apply (whole_word lang c _ "then")|apply (whole_word lang c _ "do")]; easy. }
  cbn beta iota. rewrite (acc_then_word w _ _ Hw). eapply (runs_bind (fun m => p_blk m None _)); [now apply Rb|]. cbn beta iota. rewrite eq_lay_els_l in Le. destruct e; cbn [reads_els] in Re; lay_split.
  - rewrite !acc_other by reflexivity. rewrite req_word. apply runs_const.
  - rewrite acc_word. eapply (runs_bind (fun m => p_blk m None _)); [now apply Re|]. cbn beta iota. rewrite req_word. apply runs_const.
  - rewrite acc_other by reflexivity. rewrite acc_word. eapply (runs_bind (fun m => p_if m _)); [now apply Re|]. apply runs_const.
Qed.
Lemma rd_short nested c b e : wf_ifs (IShort nested c b e) -> reads c -> reads_blk b -> reads_els e -> reads_ifs (IShort nested c b e).
Proof.
  intros W R Rb Re ts rest L. rewrite eq_wf_ifs_l in W. destruct W as (Wc & Wb & We & Ne). rewrite eq_lay_ifs_l in L; cbv iota in L.
  destruct L as (l & tc & b1 & -> & (Lc & tc' & Etc) & (a2 & b2 & -> & (-> & Fo & Nt & Nd) & (tb & b3 & -> & Lb & (te & b4 & -> & Le & (-> & Ns))))). norm. apply nested_line in Ns.
  apply runs_step. eapply runs_ext; [intros m; apply eq_if|]. destruct (follow_stops _ _ _ Fo) as (F1 & F2).
  eapply (runs_bind (fun m => p_ex m None _)); [exact (whole_reads_ex lang c _ _ Wc R Lc F1 F2)|]. cbn beta iota.
  replace (acc_then lang (tb ++ te ++ rest)) with (@None (list Z * list ltok)).
  2:{ symmetry. unfold acc_then. rewrite (next_acc "then" ["then"]%string) by (easy || now left). destruct lang; [|reflexivity]. cbn [is_pico8]. rewrite (next_acc "do" ["do"]%string); [reflexivity|now apply Nd|now left]. }
  rewrite Etc, prev_app. cbn beta iota. unfold pt. cond. eapply (runs_bind (fun m => p_blk m (Some l) _)); [now apply Rb|]. cbn beta iota. rewrite <- Ns. destruct e; [| |easy].
  - destruct Le as (-> & Nl). cbn [app] in *. destruct (on_line l rest) eqn:El; [|rewrite <- El; apply runs_const].
    rewrite (next_acc "else" ["else"]%string); [rewrite <- El; apply runs_const| |now left]. intros H. apply Nl. split; [now apply line_same|exact H].
  - destruct Le as (a5 & b5 & -> & -> & Le). norm. replace (on_line l ((kw "else", l) :: b5 ++ rest)) with true by (symmetry; apply Z.eqb_refl).
    change (kw "else") with (op_tok (asc "else")). rewrite acc_word. cbn [reads_els] in Re. eapply (runs_bind (fun m => p_blk m (Some l) _)); [now apply Re|]. apply runs_const.
Qed.

(** ** All of it *)
Definition first_reads (es : exs) : Prop := match es with XCons e more => reads e /\ reads_list more | XNil => True end.
Lemma all_read :
  (forall e, wf e -> reads e) /\ (forall es, wf_exs es -> reads_list es /\ first_reads es) /\ (forall i, wf_its i -> reads_its i) /\ (forall s, wf_st s -> reads_st s) /\
  (forall b, wf_blk b -> reads_blk b) /\ (forall i, wf_ifs i -> reads_ifs i) /\ (forall e, wf_els e -> reads_els e).
Proof.
  apply prog_all.
  - intros. now apply read_const.
  - intros. apply read_dots.
  - intros. now apply read_var.
  - intros ps b IH W. rewrite eq_wf_l in W. apply read_xfun. apply fun_reads; [easy|]. intros. now apply (IH (proj2 W) None).
  - intros e IH W. rewrite eq_wf_l in W. apply read_group; auto.
  - intros op e IH W. apply read_un; [easy|]. rewrite eq_wf_l in W. now apply IH.
  - intros op l IHl r IHr W. apply read_bin; [easy|..]; rewrite eq_wf_l in W; tauto.
  - intros e IH key W. apply read_mem; [easy|]. rewrite eq_wf_l in W. tauto.
  - intros e IH k IHk W. apply read_idx; [easy|..]; rewrite eq_wf_l in W; tauto.
  - intros f IH short args IHa W. apply read_call; [easy|..]; rewrite eq_wf_l in W; tauto.
  - intros e IH key short args IHa W. apply read_meth; [easy|..]; rewrite eq_wf_l in W; tauto.
  - intros i IH W. rewrite eq_wf_l in W. apply read_tab. auto.
  - intros _. split; [apply read_nil|exact I].
  - intros e IH es IHa W. rewrite eq_wf_exs_l in W. destruct W as (We & Ws). destruct (IHa Ws). split; [|split]; [apply read_cons| |]; auto.
  - intros _. apply read_inil.
  - intros k IHk v IHv sep i IH W. apply read_iidx; [easy|..]; rewrite eq_wf_its_l in W; tauto.
  - intros key v IHv sep i IH W. apply read_imem; [easy|..]; rewrite eq_wf_its_l in W; tauto.
  - intros e IHe sep i IH W. apply read_iitem; [easy|..]; rewrite eq_wf_its_l in W; tauto.
  - intros _. apply rd_semi.
  - intros b IH W. rewrite eq_wf_st_l in W. apply rd_do. auto.
  - intros i IH W. rewrite eq_wf_st_l in W. apply rd_if. auto.
  - intros c IHc b IHb W. rewrite eq_wf_st_l in W. apply rd_while; tauto.
  - intros nested c IHc b IHb W. rewrite eq_wf_st_l in W. apply rd_while_short; tauto.
  - intros b IHb c IHc W. rewrite eq_wf_st_l in W. apply rd_repeat; tauto.
  - intros x a IHa z IHz step IHs b IHb W. apply rd_for; [easy|..]; rewrite eq_wf_st_l in W; tauto.
  - intros xs es IHe b IHb W. apply rd_for_in; [easy|..]; rewrite eq_wf_st_l in W; tauto.
  - intros _. apply rd_break.
  - intros es IH W. rewrite eq_wf_st_l in W. apply rd_return; tauto.
  - intros xs es IH W. apply rd_local; [easy|]. rewrite eq_wf_st_l in W. tauto.
  - intros x ps b IH W. rewrite eq_wf_st_l in W. apply rd_local_fun. apply fun_reads; [tauto|]. intros. apply (IH ltac:(tauto) None); tauto.
  - intros x path meth ps b IH W. apply rd_fun; [easy|]. rewrite eq_wf_st_l in W. apply fun_reads; [tauto|]. intros. apply (IH ltac:(tauto) None); tauto.
  - intros x _. apply rd_goto.
  - intros x _. apply rd_label.
  - intros ts IHt es IHe W. apply rd_assign; [easy|..]; rewrite eq_wf_st_l in W; destruct W as (_ & Wt & _ & We); [| |tauto]; specialize (IHt Wt) as (_ & IHt); destruct ts; try exact I; apply IHt.
  - intros t IHt op e IHe W. apply rd_op; [easy|..]; rewrite eq_wf_st_l in W; tauto.
  - intros es IH W. apply rd_print; [easy|]. rewrite eq_wf_st_l in W. tauto.
  - intros e IH W. apply rd_call; [easy|]. rewrite eq_wf_st_l in W. tauto.
  - intros _. apply rd_bnil.
  - intros s IHs b IHb W. rewrite eq_wf_blk_l in W. apply rd_bcons; tauto.
  - intros w c IHc b IHb e IHe W. apply rd_long; [easy|..]; rewrite eq_wf_ifs_l in W; tauto.
  - intros nested c IHc b IHb e IHe W. apply rd_short; [easy|..]; rewrite eq_wf_ifs_l in W; tauto.
  - intros _. exact I.
  - intros b IH W. rewrite eq_wf_els_l in W. exact (IH W).
  - intros i IH W. rewrite eq_wf_els_l in W. exact (IH W).
Qed.
Lemma program_reads b ts : program lang b ts -> parse_prog lang ts = Ok b.
Proof.
  intros (W & L). destruct all_read as (_ & _ & _ & _ & R & _). destruct (R b W None ts [] L) as (n & H). specialize (H n (le_n n)). rewrite app_nil_r in H. now apply (blk_enough lang n).
Qed.
End Read2.
