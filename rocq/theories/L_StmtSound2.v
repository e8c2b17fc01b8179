(** What the parser returns is a tree with the tokens read: statements. *)
From Coq Require Import String List ZArith Lia Bool.
From Verif Require Import M_Base L_Util M_Fold M_Token M_Expr S_Expr L_Expr L_ExprSound L_ExprPrint M_Stmt S_Stmt L_Stmt L_StmtEq L_StmtRead L_StmtRead2 L_StmtSound.
Import ListNotations.
Open Scope Z_scope.

Ltac bd E := match type of E with bind ?m _ = _ => let a := fresh "r" in let t := fresh "t" in let E1 := fresh "E" in
    destruct m as [[a t]|] eqn:E1; [|discriminate E]; cbn [bind] in E end.
Ltac rq E F := match type of E with bind (req ?s ?ts) _ = _ => let t := fresh "t" in let E1 := fresh "E" in let l := fresh "l" in let F1 := fresh "F" in
    destruct (req s ts) as [t|] eqn:E1; [|discriminate E]; cbn [bind] in E; destruct (req_tok _ _ _ E1 F eq_refl) as (l & -> & F1); clear E1 end.
Ltac id E F := match type of E with bind (idt ?ts) _ = _ => let w := fresh "w" in let t := fresh "t" in let E1 := fresh "E" in let l := fresh "l" in let F1 := fresh "F" in let P := fresh "P" in
    destruct (idt ts) as [[w t]|] eqn:E1; [|discriminate E]; cbn [bind] in E; destruct (idt_tok _ _ _ E1 F) as (l & -> & P & F1); clear E1 end.

Section Sound2.
Context (lang : language).
Notation p_ex := (p_ex lang).
Notation p_list := (p_list lang).
Notation p_fun := (p_fun lang).
Notation p_if := (p_if lang).
Notation p_stmt := (p_stmt lang).
Notation p_blk := (p_blk lang).
Notation wf_st := (wf_st lang).
Notation lay_st := (lay_st lang).
Opaque M_Stmt.p_ex M_Stmt.p_core M_Stmt.p_loop M_Stmt.p_args M_Stmt.p_list M_Stmt.p_its M_Stmt.p_fun M_Stmt.p_if M_Stmt.p_stmt M_Stmt.p_blk.
Opaque S_Stmt.wf S_Stmt.wf_exs S_Stmt.wf_its S_Stmt.wf_st S_Stmt.wf_blk S_Stmt.wf_ifs S_Stmt.wf_els S_Stmt.lay S_Stmt.lay_list S_Stmt.lay_its S_Stmt.lay_st S_Stmt.lay_blk S_Stmt.lay_ifs S_Stmt.lay_els.

Ltac fin := split; [now norm|]; split; [easy|]; rewrite eq_wf_st_l, eq_lay_st_l; cbv iota.
Lemma stands_spec rest : acc "," rest = None -> acc "=" rest = None -> match rest with (Tok TPunct w, _) :: _ => ends_eq w = false | _ => True end -> stands_alone rest.
Proof.
  intros A B C. split; [now apply acc_next2|]. destruct rest as [|[[[] w|] l] rest]; try easy. intros H. apply ends_eq_spec in H. congruence.
Qed.
Lemma acc_false s ty v l ts : zeqb_list v (asc s) = false -> acc s ((Tok ty v, l) :: ts) = None.
Proof. cbn [acc]. now intros ->. Qed.
Lemma print_ends rest es : goes_on rest = false -> follow_list lang es rest -> follow_list lang es rest /\ stands_alone rest /\ ~ next_is suffixes rest /\ match rest with (Tok ty _, _) :: _ => ty <> TString | _ => True end.
Proof.
  intros E F. split; [easy|]. destruct rest as [|[[ty v|] l] rest]; try easy; cbn [goes_on] in E.
  apply orb_false_elim in E as (E & E2). apply orb_false_elim in E as (E & E1). cbn [map existsb] in E. repeat (apply orb_false_elim in E as (? & E)).
  split; [apply stands_spec; [now apply acc_false..|now destruct ty]|]. split; [|now destruct ty]. cbn [next_is suffixes map In]. intros I.
  repeat (destruct I as [I|I]; [subst v; discriminate|]). easy.
Qed.
Lemma returns_spec vl rest : returns_nothing vl rest = true -> bare_return vl rest.
Proof.
  unfold returns_nothing, bare_return. intros E. apply orb_prop in E as [E|E]; [left|right; now apply past_beyond]. destruct rest as [|[[ty v|] l] rest]; try easy. cbn [next_is].
  apply orb_prop in E as [E|E]; [apply existsb_in in E; now right|apply zeqb_sound in E; left; now symmetry].
Qed.
Lemma returns_not vl rest : returns_nothing vl rest = false -> ~ past vl rest.
Proof. unfold returns_nothing. intros E H. apply orb_false_elim in E as (_ & E). apply past_beyond in H. congruence. Qed.

Lemma stmt_step n : s_ex lang n -> s_list lang n -> s_fun lang n -> s_if lang n -> s_blk lang n -> s_stmt lang (S n).
Proof.
  intros IE IL IF II IB vl ts s rest E F. rewrite eq_stmt in E. destruct ts as [|[[ty v|] l] ts]; try discriminate E. inversion F as [|? ? Pt F']; subst. cbn [fst] in Pt.
  assert (Ty : forall s, known s = true -> zeqb_list v (asc s) = true -> Tok ty v = op_tok (asc s)) by (intros w I Q; apply zeqb_sound in Q; subst v; now apply known_tok).
  destruct (zeqb_list v (asc ";")) eqn:Q1.
  { rewrite (Ty ";"%string) by easy. injection E as <- <-. exists [(op_tok (asc ";"), l)]. fin. split; [easy|]. build. }
  destruct (zeqb_list v (asc "do")) eqn:Q2.
  { rewrite (Ty "do"%string) by easy. bd E. destruct (IB _ _ _ _ E0 F') as (pb & -> & F1 & Wb & Lb). rq E F1. injection E as <- <-.
    exists ((op_tok (asc "do"), l) :: pb ++ [(op_tok (asc "end"), l0)]). fin. split; [easy|]. build. norm. easy. }
  destruct (zeqb_list v (asc "if")) eqn:Q3.
  { rewrite (Ty "if"%string) by easy. bd E. destruct (II _ _ _ E0 F') as (pi & -> & F1 & Wi & Li). injection E as <- <-. exists ((op_tok (asc "if"), l) :: pi). fin. split; [easy|]. apply word_seq. easy. }
  destruct (zeqb_list v (asc "while")) eqn:Q4.
  { rewrite (Ty "while"%string) by easy. bd E. destruct (IE _ _ _ _ E0 F') as (pc & -> & F1 & Wc & Lc & _ & St & Ns). destruct (acc "do" t) as [t2|] eqn:E2.
    - destruct (acc_tok _ _ _ E2 F1 eq_refl) as (l2 & -> & F2). bd E. destruct (IB _ _ _ _ E1 F2) as (pb & -> & F3 & Wb & Lb). rq E F3. injection E as <- <-.
      exists ((op_tok (asc "while"), l) :: pc ++ (op_tok (asc "do"), l2) :: pb ++ [(op_tok (asc "end"), l0)]). fin. split; [easy|]. build; norm; easy.
    - destruct (prev_tok (pc ++ t) t) as [[[ty' v'|] lp]|] eqn:Ep; try discriminate E. destruct (zeqb_list v' (asc ")")) eqn:Q; [|discriminate E].
      destruct (prev_paren lang _ _ _ _ _ _ F' Wc Lc Ep Q) as (p' & Epc). bd E. destruct (IB _ _ _ _ E1 F1) as (pb & -> & F3 & Wb & Lb). pose proof (stops_follow lang _ _ St Ns F1) as Fo.
      assert (Es : SWhileShort (on_line lp t0) r r0 = s /\ t0 = rest) by (now injection E). destruct Es as (<- & <-).
      exists ((op_tok (asc "while"), l) :: pc ++ pb). fin. split; [easy|]. exists lp. apply word_seq. apply seq_intro; [split; [norm; easy|now exists p']|]. apply ahead_seq; [split; [easy|now apply acc_next]|].
      apply seq_end; [easy|now apply nested_line]. }
  destruct (zeqb_list v (asc "repeat")) eqn:Q5.
  { rewrite (Ty "repeat"%string) by easy. bd E. destruct (IB _ _ _ _ E0 F') as (pb & -> & F1 & Wb & Lb). rq E F1. bd E. destruct (IE _ _ _ _ E1 F0) as (pc & -> & F3 & Wc & Lc & _ & St & Ns). injection E as <- <-.
    exists ((op_tok (asc "repeat"), l) :: pb ++ (op_tok (asc "until"), l0) :: pc). fin. split; [easy|]. build; norm; try easy. now apply stops_follow. }
  destruct (zeqb_list v (asc "for")) eqn:Q6.
  { rewrite (Ty "for"%string) by easy. match type of E with (if ?c then _ else _) = _ => destruct c end.
    - id E F'. rq E F0. bd E. destruct (IE _ _ _ _ E0 F1) as (pa & -> & F2 & Wa & La & _). rq E F2. bd E. destruct (IE _ _ _ _ E1 F3) as (pz & -> & F4 & Wz & Lz & _).
      match type of E with bind ?m _ = _ => destruct m as [(step, ts1)|] eqn:Es; [|discriminate E] end. cbn [bind] in E. destruct (acc "," t) as [t2|] eqn:E2.
      + destruct (acc_tok _ _ _ E2 F4 eq_refl) as (lc & -> & F5). bd Es. destruct (IE _ _ _ _ E3 F5) as (ps & -> & F6 & Ws & Ls & _). injection Es as <- <-. rq E F6. bd E.
        destruct (IB _ _ _ _ E4 F7) as (pb & -> & F8 & Wb & Lb). rq E F8. injection E as <- <-.
        exists ((op_tok (asc "for"), l) :: (Tok TIdent w, l0) :: (op_tok (asc "="), l1) :: pa ++ (op_tok (asc ","), l2) :: pz ++ ((op_tok (asc ","), lc) :: ps) ++ (op_tok (asc "do"), l3) :: pb ++ [(op_tok (asc "end"), l4)]).
        fin. rewrite !eq_wf_exs_l. split; [easy|]. build; norm; easy.
      + injection Es as <- <-. rq E F4. bd E. destruct (IB _ _ _ _ E3 F5) as (pb & -> & F8 & Wb & Lb). rq E F8. injection E as <- <-.
        exists ((op_tok (asc "for"), l) :: (Tok TIdent w, l0) :: (op_tok (asc "="), l1) :: pa ++ (op_tok (asc ","), l2) :: pz ++ (op_tok (asc "do"), l3) :: pb ++ [(op_tok (asc "end"), l4)]).
        fin. rewrite !eq_wf_exs_l. split; [easy|]. build; norm; easy.
    - bd E. destruct (vars_sound lang _ _ _ _ _ E0 F') as (px & -> & F1 & Ne & Ax & Lx & _ & _ & Nn); [easy|]. rq E F1. bd E. destruct (IL _ _ _ E1 F0) as (pe & -> & F3 & Nes & Wes & Les & _).
      rq E F3. bd E. destruct (IB _ _ _ _ E2 F2) as (pb & -> & F8 & Wb & Lb). rq E F8. injection E as <- <-. specialize (Nn eq_refl).
      exists ((op_tok (asc "for"), l) :: px ++ (op_tok (asc "in"), l0) :: pe ++ (op_tok (asc "do"), l1) :: pb ++ [(op_tok (asc "end"), l2)]). fin. split.
      + split; [now destruct r|]. split; [|easy]. apply Forall_map. apply (Forall_impl _ (P := attr_ok lang)); [|easy]. now intros x (P & _).
      + build; norm; try easy. now apply vars_names. }
  destruct (zeqb_list v (asc "break")) eqn:Q7.
  { rewrite (Ty "break"%string) by easy. injection E as <- <-. exists [(op_tok (asc "break"), l)]. fin. split; [easy|]. build. }
  destruct (zeqb_list v (asc "return")) eqn:Q8.
  { rewrite (Ty "return"%string) by easy. destruct (returns_nothing vl ts) eqn:Er.
    - injection E as <- <-. exists [(op_tok (asc "return"), l)]. fin. split; [now rewrite eq_wf_exs_l|]. apply seq_end; [build|]. now apply returns_spec.
    - bd E. apply returns_not in Er. destruct (IL _ _ _ E0 F') as (pe & -> & F3 & Nes & Wes & Les & Fo). injection E as <- <-. exists ((op_tok (asc "return"), l) :: pe). fin. split; [easy|].
      destruct r as [|e es]; [easy|]. apply word_seq. apply ahead_seq; [easy|]. now apply seq_end. }
  destruct (zeqb_list v (asc "local")) eqn:Q9.
  { rewrite (Ty "local"%string) by easy. destruct (acc "function" ts) as [t|] eqn:E1.
    - destruct (acc_tok _ _ _ E1 F' eq_refl) as (l2 & -> & F1). id E F1. bd E. destruct r as (ps, b). destruct (IF _ _ _ _ E0 F0) as (pf & -> & F2 & Pp & Wb & Lf). injection E as <- <-.
      exists ((op_tok (asc "local"), l) :: (op_tok (asc "function"), l2) :: (Tok TIdent w, l0) :: pf). fin. split; [easy|]. apply word_seq, word_seq, name_seq. easy.
    - bd E. destruct (vars_sound lang _ _ _ _ _ E0 F') as (px & -> & F1 & Ne & Ax & Lx & Nc & Nl & _); [now destruct lang|]. destruct (acc "=" t) as [t2|] eqn:E2.
      + destruct (acc_tok _ _ _ E2 F1 eq_refl) as (l2 & -> & F2). bd E. destruct (IL _ _ _ E3 F2) as (pe & -> & F3 & Nes & Wes & Les & Fo). injection E as <- <-.
        exists ((op_tok (asc "local"), l) :: px ++ (op_tok (asc "="), l2) :: pe). fin. split; [easy|]. destruct r0 as [|e es]; [easy|]. apply word_seq. apply seq_intro; [now norm|]. apply word_seq. now apply seq_end.
      + injection E as <- <-. exists ((op_tok (asc "local"), l) :: px). fin. split; [now rewrite eq_wf_exs_l|]. apply word_seq. apply seq_end; [easy|]. split; [now apply acc_next2|].
        intros El. apply Nl. now rewrite El. }
  destruct (zeqb_list v (asc "goto")) eqn:Q10.
  { rewrite (Ty "goto"%string) by easy. id E F'. injection E as <- <-. exists [(op_tok (asc "goto"), l); (Tok TIdent w, l0)]. fin. split; [easy|]. build. }
  destruct (zeqb_list v (asc "::")) eqn:Q11.
  { rewrite (Ty "::"%string) by easy. id E F'. rq E F0. injection E as <- <-. exists [(op_tok (asc "::"), l); (Tok TIdent w, l0); (op_tok (asc "::"), l1)]. fin. split; [easy|]. build. }
  destruct (zeqb_list v (asc "function")) eqn:Q12.
  { rewrite (Ty "function"%string) by easy. id E F'. bd E. destruct (path_sound _ _ _ _ E0 F0) as (pp & -> & F1 & Px & Lp). unfold p_meth in E. destruct (acc ":" t0) as [t2|] eqn:E2.
    - destruct (acc_tok _ _ _ E2 F1 eq_refl) as (l2 & -> & F2). destruct (idt t2) as [[x t3]|] eqn:E3; [|discriminate E]. cbn [bind] in E. destruct (idt_tok _ _ _ E3 F2) as (l3 & -> & Pw & F3).
      bd E. destruct r0 as (ps, b). destruct (IF _ _ _ _ E1 F3) as (pf & -> & F4 & Pp & Wb & Lf). injection E as <- <-.
      exists ((op_tok (asc "function"), l) :: (Tok TIdent w, l0) :: pp ++ ((op_tok (asc ":"), l2) :: [(Tok TIdent x, l3)]) ++ pf). fin. split; [easy|]. apply word_seq, name_seq. apply seq_intro; [apply Lp|]. apply seq_intro; [build|]. easy.
    - cbn [bind] in E. bd E. destruct r0 as (ps, b). destruct (IF _ _ _ _ E1 F1) as (pf & -> & F4 & Pp & Wb & Lf). injection E as <- <-.
      exists ((op_tok (asc "function"), l) :: (Tok TIdent w, l0) :: pp ++ pf). fin. split; [easy|]. apply word_seq, name_seq. apply seq_intro; [apply Lp|]. apply nothing_seq. easy. }
  destruct (zeqb_list v (asc "?")) eqn:Q13.
  { rewrite (Ty "?"%string) by easy. bd E. destruct (IL _ _ _ E0 F') as (pe & -> & F3 & Nes & Wes & Les & Fo). destruct (goes_on t) eqn:Eg; [discriminate E|]. injection E as <- <-.
    exists ((op_tok (asc "?"), l) :: pe). fin. split; [easy|]. apply word_seq. apply seq_end; [easy|]. now apply print_ends. }
  bd E. destruct (IE _ _ _ _ E0 F) as (pe & Ets & F1 & We & Le & _ & St & Ns). rewrite Ets. pose proof (stops_follow lang _ _ St Ns F1) as Fo.
  assert (Nf : ~ fun_first r).
  { intros H. destruct (fun_first_tok lang _ _ _ H Le) as (lf & ts' & ->). injection Ets as _ Hv _ _. rewrite Hv in Q12. discriminate Q12. }
  assert (Call : forall A (x : A), is_call r -> stands_alone t -> Ok (SCall r, t) = Ok (s, rest) -> exists pre, pe ++ t = pre ++ rest /\ okt rest /\ wf_st s /\ lay_st vl s pre rest).
  { intros _ _ Ic Sa [= <- <-]. exists pe. fin. split; [easy|]. apply seq_end; [easy|now split]. }
  assert (Call' : forall A (x : A), stands_alone t -> match r with XCall _ _ _ | XMeth _ _ _ _ => Ok (SCall r, t) | _ => Err ECheck end = Ok (s, rest) -> exists pre, pe ++ t = pre ++ rest /\ okt rest /\ wf_st s /\ lay_st vl s pre rest).
  { intros _ _ Sa Er. destruct r; try discriminate Er; now apply (Call _ tt). }
  clear Ets. destruct t as [|[[ty' w|] lw] t]; [now apply (Call' _ tt)| |now apply (Call' _ tt)]. inversion F1 as [|? ? Pw F2]; subst. cbn [fst] in Pw.
  destruct (zeqb_list w (asc ",")) eqn:R1.
  { apply zeqb_sound in R1. subst w. rewrite (known_tok "," ty' eq_refl Pw) in *. bd E. destruct (IL _ _ _ E1 F2) as (pm & -> & F3 & Nm & Wm & Lm & _). rq E F3. bd E.
    destruct (IL _ _ _ E2 F0) as (ps & -> & F4 & Nes & Wes & Les & Fos). injection E as <- <-. exists ((pe ++ (op_tok (asc ","), lw) :: pm) ++ (op_tok (asc "="), l0) :: ps). fin. rewrite eq_wf_exs_l. split; [easy|].
    apply seq_intro; [|apply word_seq; now apply seq_end]. rewrite eq_lay_list_l. destruct r0 as [|e2 es]; [easy|]. build; norm; easy. }
  destruct (zeqb_list w (asc "=")) eqn:R2.
  { apply zeqb_sound in R2. subst w. rewrite (known_tok "=" ty' eq_refl Pw) in *. bd E. destruct (IL _ _ _ E1 F2) as (ps & -> & F4 & Nes & Wes & Les & Fos). injection E as <- <-.
    exists (pe ++ (op_tok (asc "="), lw) :: ps). fin. rewrite (eq_wf_exs_l lang (XCons _ _)), (eq_wf_exs_l lang XNil). split; [easy|]. apply seq_intro; [now rewrite eq_lay_list_l|]. apply word_seq. now apply seq_end. }
  destruct (match ty' with TPunct => ends_eq w | _ => false end) eqn:R3.
  { destruct ty'; try discriminate R3. bd E. destruct (IE _ _ _ _ E1 F2) as (p2 & -> & F4 & W2 & L2 & _ & St2 & Ns2). injection E as <- <-.
    exists (pe ++ (Tok TPunct w, lw) :: p2). fin. split.
    - split; [easy|]. split; [easy|]. split; [|easy]. split; [now apply ends_eq_spec|]. split; [now apply zeqb_neq|]. intros k Lk Il. pose proof (proj1 (level_prec _ _) Lk) as Ek. apply lang_spec in Il. specialize (St _ Ek Il). discriminate St.
    - apply seq_intro; [now norm|]. apply tk_seq. apply seq_end; [easy|now apply stops_follow]. }
  apply (Call' _ tt); [|exact E]. apply stands_spec; [now apply acc_false..|]. now destruct ty'.
Qed.

Lemma parser_sound n : sound lang n.
Proof.
  induction n as [|n (IE & IC & IL & IA & Il & Ii & If & IF & IS & IB)].
  - repeat split; repeat intro; match goal with H : _ = Ok _ |- _ => discriminate H end.
  - split; [now apply ex_step|]. split; [now apply core_step|]. split; [now apply loop_step|]. split; [now apply args_step|]. split; [now apply list_step|]. split; [now apply its_step|].
    split; [now apply fun_step|]. split; [now apply if_step|]. split; [now apply stmt_step|]. now apply blk_step.
Qed.
Lemma program_sound b ts : Forall proper (map fst ts) -> parse_prog lang ts = Ok b -> program lang b ts.
Proof.
  intros F E. unfold parse_prog in E. bd E. destruct t as [|]; [|discriminate E]. injection E as <-. destruct (parser_sound (6 * length ts + 6)) as (_ & _ & _ & _ & _ & _ & _ & _ & _ & IB).
  destruct (IB _ _ _ _ E0) as (pre & -> & _ & W & L); [unfold okt; now rewrite <- (Forall_map (@fst tok Z))|]. rewrite app_nil_r. now split.
Qed.
Lemma program_exact b ts : Forall proper (map fst ts) -> (parse_prog lang ts = Ok b <-> program lang b ts).
Proof. intros F. split; [now apply program_sound|apply program_reads]. Qed.
End Sound2.
