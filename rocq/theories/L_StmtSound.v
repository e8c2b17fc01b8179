(** What the parser returns is a tree with the tokens read. *)
From Coq Require Import String List ZArith Lia Bool.
From Verif Require Import M_Base L_Util M_Fold M_Token M_Expr S_Expr L_Expr L_ExprSound L_ExprPrint M_Stmt S_Stmt L_Stmt L_StmtEq L_StmtRead L_StmtRead2.
Import ListNotations.
Open Scope Z_scope.

(** ** Putting rules together *)
Lemma seq_intro (A B : rule) a b rest : A a (b ++ rest) -> B b rest -> (A >> B) (a ++ b) rest.
Proof. intros HA HB. now exists a, b. Qed.
Lemma seq_end (A : rule) (P : list ltok -> Prop) a rest : A a rest -> P rest -> (A >> ahead P) a rest.
Proof. intros HA HP. exists a, []. rewrite app_nil_r. repeat split; auto. Qed.
Lemma tk_seq t l (B : rule) b rest : B b rest -> (tk t >> B) ((t, l) :: b) rest.
Proof. intros H. exists [(t, l)], b. repeat split; auto. now exists l. Qed.
Lemma word_seq s l (B : rule) b rest : B b rest -> (word s >> B) ((op_tok (asc s), l) :: b) rest.
Proof. apply tk_seq. Qed.
Lemma name_seq x l (B : rule) b rest : B b rest -> (name x >> B) ((Tok TIdent x, l) :: b) rest.
Proof. apply tk_seq. Qed.
Lemma ahead_seq (P : list ltok -> Prop) (B : rule) b rest : P (b ++ rest) -> B b rest -> (ahead P >> B) b rest.
Proof. intros HP HB. exists [], b. repeat split; auto. Qed.
Lemma nothing_seq (B : rule) b rest : B b rest -> (nothing >> B) b rest.
Proof. intros HB. now exists [], b. Qed.
Lemma tk_last t l rest : tk t [(t, l)] rest.
Proof. now exists l. Qed.
Ltac build := repeat first
  [ apply word_seq | apply name_seq | apply tk_seq | apply ahead_seq | apply nothing_seq | apply seq_end | apply tk_last | apply seq_intro ].
Ltac norm := repeat (progress (cbn [app] in *; rewrite <- ?app_assoc in *; rewrite ?app_nil_r in *)).

(** ** Tokens *)
Definition okt (ts : list ltok) : Prop := Forall (fun t => proper (fst t)) ts.
Definition known (s : string) : bool := existsb (zeqb_list (asc s)) symbols || is_keyword (asc s).
Lemma known_tok s ty : known s = true -> proper (Tok ty (asc s)) -> Tok ty (asc s) = op_tok (asc s).
Proof.
  unfold known, op_tok. intros K P. destruct ty; cbn [proper] in P; try (now rewrite P); destruct P as (N & Kw); rewrite Kw, orb_false_r in K; apply existsb_in in K; easy.
Qed.
Lemma acc_tok s ts ts' : acc s ts = Some ts' -> okt ts -> known s = true -> exists l, ts = (op_tok (asc s), l) :: ts' /\ okt ts'.
Proof.
  destruct ts as [|[[ty v|] l] ts]; try easy. cbn [acc]. intros E F K. destruct (zeqb_list v (asc s)) eqn:Q; [|easy]. injection E as ->. apply zeqb_sound in Q. subst v. inversion_clear F as [|? ? P F'].
  exists l. split; [|easy]. cbn [fst] in P. now rewrite (known_tok s ty K P).
Qed.
Lemma req_tok s ts ts' : req s ts = Ok ts' -> okt ts -> known s = true -> exists l, ts = (op_tok (asc s), l) :: ts' /\ okt ts'.
Proof. unfold req. destruct (acc s ts) eqn:E; [|easy]. intros [= ->]. now apply acc_tok. Qed.
Lemma idt_tok ts w ts' : idt ts = Ok (w, ts') -> okt ts -> exists l, ts = (Tok TIdent w, l) :: ts' /\ plain_word w /\ okt ts'.
Proof. destruct ts as [|[[[] v|] l] ts]; cbn; try easy. intros [= -> ->] F. inversion_clear F. now exists l. Qed.
Lemma acc_next s ts : acc s ts = None -> ~ next_is [s] ts.
Proof. destruct ts as [|[[ty v|] l] ts]; try easy. cbn [acc next_is map]. intros E [<-|[]]. now rewrite zeqb_list_refl in E. Qed.
Lemma acc_next2 s s' ts : acc s ts = None -> acc s' ts = None -> ~ next_is [s; s'] ts.
Proof. intros A B. apply acc_next in A, B. destruct ts as [|[[ty v|] l] ts]; try easy. cbn [next_is map In] in *. tauto. Qed.
Lemma prev_end pre (r : list ltok) t : pre <> [] -> prev_tok (pre ++ r) r = Some t -> exists p', pre = p' ++ [t].
Proof.
  intros N. destruct (exists_last N) as (p' & x & ->). rewrite prev_app. intros [= ->]. now exists p'.
Qed.
Lemma okt_app a b : okt (a ++ b) <-> okt a /\ okt b.
Proof. apply Forall_app. Qed.

Section Sound.
Context (lang : language).
Notation p_ex := (p_ex lang).
Notation p_core := (p_core lang).
Notation p_loop := (p_loop lang).
Notation p_args := (p_args lang).
Notation p_list := (p_list lang).
Notation p_its := (p_its lang).
Notation p_fun := (p_fun lang).
Notation p_if := (p_if lang).
Notation p_stmt := (p_stmt lang).
Notation p_blk := (p_blk lang).
Notation wf := (wf lang).
Notation wf_exs := (wf_exs lang).
Notation wf_its := (wf_its lang).
Notation wf_st := (wf_st lang).
Notation wf_blk := (wf_blk lang).
Notation wf_ifs := (wf_ifs lang).
Notation wf_els := (wf_els lang).
Notation lay := (lay lang).
Notation lay_list := (lay_list lang).
Notation lay_its := (lay_its lang).
Notation lay_st := (lay_st lang).
Notation lay_blk := (lay_blk lang).
Notation lay_ifs := (lay_ifs lang).
Notation lay_els := (lay_els lang).
Notation stops := (stops lang).
Notation edge_ex := (edge_ex lang).
Opaque M_Stmt.p_ex M_Stmt.p_core M_Stmt.p_loop M_Stmt.p_args M_Stmt.p_list M_Stmt.p_its M_Stmt.p_fun M_Stmt.p_if M_Stmt.p_stmt M_Stmt.p_blk.
Opaque S_Stmt.wf S_Stmt.wf_exs S_Stmt.wf_its S_Stmt.wf_st S_Stmt.wf_blk S_Stmt.wf_ifs S_Stmt.wf_els S_Stmt.lay S_Stmt.lay_list S_Stmt.lay_its S_Stmt.lay_st S_Stmt.lay_blk S_Stmt.lay_ifs S_Stmt.lay_els.

Lemma stops_follow e rest : stops None rest -> (open_end e -> nosuf rest) -> okt rest -> follow lang e rest.
Proof.
  intros St Ns F. destruct rest as [|[[ty v|] l] rest]; try easy. split.
  - intros k Lk Il. pose proof (proj1 (level_prec _ _) Lk) as E. apply lang_spec in Il. specialize (St _ E Il). discriminate St.
  - intros O. destruct (Ns O) as (S1 & S2). split; [|now intros ->]. intros I. apply existsb_in in I. unfold suffix_sym in S1. unfold suffixes in I. congruence.
Qed.
Lemma edge_tight_ex v k p e rest ty l : binary_prec v = Some p -> p = Z.of_nat k -> binary_lang lang v = true -> edge_ex e ((Tok ty v, l) :: rest) ->
  if right_binary v then tight_ex e (k + 1) else tight_ex e k.
Proof.
  intros E -> L Ed. destruct e; try (destruct (right_binary v); exact I).
  - cbn in Ed. specialize (Ed _ E L). unfold compare_prec in Ed. destruct (right_binary v); cbn [tight_ex]; lia.
  - cbn in Ed. destruct Ed as (q & Eq & St). specialize (St _ E L). destruct (prec_nat _ _ Eq) as (n & -> & Ln).
    unfold compare_prec in St. destruct (right_binary v); exists n; (split; [exact Ln|lia]).
Qed.
Lemma allowed_tight_ex v k e : level_of v k -> allowed_ex (Some (Z.of_nat k)) e -> if right_binary v then tight_ex e k \/ is_un e else tight_ex e (k + 1) \/ is_un e.
Proof.
  intros L A. destruct e; try (destruct (right_binary v); left; exact I).
  - destruct (right_binary v); right; exact I.
  - destruct A as (q & Eq & C). destruct (prec_nat _ _ Eq) as (n & -> & Ln). cbn [compare_prec] in C.
    destruct (right_binary v) eqn:Rv, (right_binary op) eqn:Ro; left; exists n; (split; [exact Ln|]); try lia.
    assert (N : n <> k); [|lia]. intros ->. apply right_spec in Ro. rewrite (right_level _ _ Ln) in Ro. rewrite <- (right_level _ _ L), <- right_spec in Ro. congruence.
Qed.
Lemma fun_first_tok e ts rest : fun_first e -> lay e ts rest -> exists l ts', ts = (op_tok (asc "function"), l) :: ts'.
Proof.
  revert ts rest. induction e; intros ts rest Ff L; try easy; rewrite eq_lay_l in L.
  - destruct L as (a & b & -> & (l & ->) & _). cbn [app]. eauto.
  - destruct L as (a & b & -> & L & _). destruct (IHe1 _ _ Ff L) as (l & ts' & ->). cbn [app]. eauto.
Qed.

(** ** Names *)
Lemma var_sound attrs ts x rest : p_var attrs ts = Ok (x, rest) -> okt ts -> (attrs = true -> lang = Picotron) ->
  exists pre, ts = pre ++ rest /\ okt rest /\ attr_ok lang x /\ var x pre rest /\ (attrs = true -> snd x = None -> ~ next_is ["<"]%string rest) /\ (attrs = false -> snd x = None).
Proof.
  unfold p_var. intros E F At. destruct (idt ts) as [(w, ts1)|] eqn:E1; [|discriminate E]. cbn [bind] in E. destruct (idt_tok _ _ _ E1 F) as (l & -> & P & F1). destruct attrs.
  - specialize (At eq_refl). destruct (acc "<" ts1) as [ts2|] eqn:E2.
    + destruct (acc_tok _ _ _ E2 F1 eq_refl) as (l2 & -> & F2). destruct ts2 as [|[[[] a|] l3] ts2]; try discriminate E. inversion F2 as [|? ? Pa F3]; subst.
      destruct (zeqb_list a (asc "const") || zeqb_list a (asc "close")) eqn:Q; [|discriminate E]. destruct (req ">" ts2) as [ts4|] eqn:E4; [|discriminate E]. injection E as <- <-.
      destruct (req_tok _ _ _ E4 F3 eq_refl) as (l4 & -> & F4).
      exists [(Tok TIdent w, l); (op_tok (asc "<"), l2); (Tok TIdent a, l3); (op_tok (asc ">"), l4)]. split; [easy|]. split; [easy|]. split; [split; [exact P|]|].
      * apply orb_prop in Q as [Q|Q]; apply zeqb_sound in Q; subst; cbn [snd]; auto.
      * split; [|easy]. unfold var. cbn [snd fst]. build.
    + injection E as <- <-. exists [(Tok TIdent w, l)]. split; [easy|]. split; [easy|]. split; [now split|]. split; [unfold var; cbn [snd fst]; build|]. split; [|easy]. intros _ _. now apply acc_next.
  - injection E as <- <-. exists [(Tok TIdent w, l)]. split; [easy|]. split; [easy|]. split; [now split|]. split; [unfold var; cbn [snd fst]; build|easy].
Qed.
Lemma vars_sound n attrs : forall ts xs rest, p_vars n attrs ts = Ok (xs, rest) -> okt ts -> (attrs = true -> lang = Picotron) ->
  exists pre, ts = pre ++ rest /\ okt rest /\ xs <> [] /\ Forall (attr_ok lang) xs /\ vars xs pre rest /\ acc "," rest = None /\
    (attrs = true -> snd (last xs ([], None)) = None -> ~ next_is ["<"]%string rest) /\ (attrs = false -> forall x, In x xs -> snd x = None).
Proof.
  induction n as [|n IH]; [easy|]. intros ts xs rest E F At. cbn [p_vars] in E. destruct (p_var attrs ts) as [(x, ts1)|] eqn:E1; [|discriminate E]. cbn [bind] in E.
  destruct (var_sound _ _ _ _ E1 F At) as (pre & -> & F1 & Ax & Lx & Nx & Fx). destruct (acc "," ts1) as [ts2|] eqn:E2.
  - destruct (acc_tok _ _ _ E2 F1 eq_refl) as (l & -> & F2). destruct (p_vars n attrs ts2) as [(xs', ts3)|] eqn:E3; [|discriminate E]. injection E as <- <-.
    destruct (IH _ _ _ E3 F2 At) as (pre2 & -> & F3 & Ne & Axs & Lxs & Nc & Nl & Fs). exists (pre ++ (op_tok (asc ","), l) :: pre2). split; [now norm|]. split; [easy|]. split; [easy|]. split; [now constructor|].
    split; [|split; [easy|split; [now destruct xs'|]]].
    + destruct xs' as [|y xs']; [easy|]. cbn [vars]. build; [now norm|]. exact Lxs.
    + intros Ea y [<-|I]; auto.
  - injection E as <- <-. exists pre. split; [easy|]. split; [easy|]. split; [easy|]. split; [now constructor|]. split; [easy|]. split; [easy|]. split; [easy|]. intros Ea y [<-|[]]. auto.
Qed.
Lemma vars_names xs ts rest : (forall x, In x xs -> snd x = None) -> vars xs ts rest -> names (map fst xs) ts rest.
Proof.
  revert ts. induction xs as [|x xs IH]; [easy|]. intros ts H L. destruct xs as [|y xs].
  - cbn [vars map names] in *. unfold var in L. rewrite (H x) in L by (now left). exact L.
  - destruct L as (a & b & -> & La & (a2 & b2 & -> & Lc & Lb)). cbn [map names]. apply seq_intro; [unfold var in La; rewrite (H x) in La by (now left); exact La|]. apply seq_intro; [exact Lc|].
    apply IH; [|exact Lb]. intros z I. apply H. now right.
Qed.
Lemma param_sound ts p rest : p_param ts = Ok (p, rest) -> okt ts -> exists pre, ts = pre ++ rest /\ okt rest /\ param_ok p /\ forall r, param p pre r.
Proof.
  unfold p_param. intros E F. destruct (acc "..." ts) as [ts1|] eqn:E1.
  - injection E as <- <-. destruct (acc_tok _ _ _ E1 F eq_refl) as (l & -> & F1). exists [(op_tok (asc "..."), l)]. repeat split; auto. intros r. now exists l.
  - destruct (idt ts) as [(w, ts1)|] eqn:E2; [|discriminate E]. injection E as <- <-. destruct (idt_tok _ _ _ E2 F) as (l & -> & P & F1). exists [(Tok TIdent w, l)]. repeat split; auto; try apply P. intros r. now exists l.
Qed.
Lemma more_params_sound n : forall ts ps rest, p_more_params n ts = Ok (ps, rest) -> okt ts ->
  exists pre l, ts = pre ++ (op_tok (asc ")"), l) :: rest /\ okt rest /\ ps <> [] /\ Forall param_ok ps /\ forall r, params ps pre r.
Proof.
  induction n as [|n IH]; [easy|]. intros ts ps rest E F. cbn [p_more_params] in E. destruct (p_param ts) as [(p, ts1)|] eqn:E1; [|discriminate E]. cbn [bind] in E.
  destruct (param_sound _ _ _ E1 F) as (pre & -> & F1 & P & L). destruct (acc ")" ts1) as [ts2|] eqn:E2.
  - injection E as <- <-. destruct (acc_tok _ _ _ E2 F1 eq_refl) as (l & -> & F2). exists pre, l. split; [easy|]. split; [easy|]. split; [easy|]. split; [now constructor|]. exact L.
  - destruct (req "," ts1) as [ts2|] eqn:E3; [|discriminate E]. cbn [bind] in E. destruct (req_tok _ _ _ E3 F1 eq_refl) as (l & -> & F2).
    destruct (p_more_params n ts2) as [(ps', ts3)|] eqn:E4; [|discriminate E]. injection E as <- <-. destruct (IH _ _ _ E4 F2) as (pre2 & l2 & -> & F3 & Ne & Fp & Lp).
    exists (pre ++ (op_tok (asc ","), l) :: pre2), l2. split; [now norm|]. split; [easy|]. split; [easy|]. split; [now constructor|]. intros r. destruct ps' as [|p' ps']; [easy|]. cbn [params]. build; [apply L|apply Lp].
Qed.
Lemma params_sound n ts ps rest : p_params n ts = Ok (ps, rest) -> okt ts ->
  exists l pre l2, ts = (op_tok (asc "("), l) :: pre ++ (op_tok (asc ")"), l2) :: rest /\ okt rest /\ Forall param_ok ps /\ forall r, params ps pre r.
Proof.
  unfold p_params. intros E F. destruct (req "(" ts) as [ts1|] eqn:E1; [|discriminate E]. cbn [bind] in E. destruct (req_tok _ _ _ E1 F eq_refl) as (l & -> & F1).
  destruct (acc ")" ts1) as [ts2|] eqn:E2.
  - injection E as <- <-. destruct (acc_tok _ _ _ E2 F1 eq_refl) as (l2 & -> & F2). exists l, [], l2. repeat split; auto.
  - destruct (more_params_sound _ _ _ _ E F1) as (pre & l2 & -> & F2 & _ & Fp & L). exists l, pre, l2. repeat split; auto.
Qed.
Lemma path_sound n : forall ts xs rest, p_path n ts = Ok (xs, rest) -> okt ts -> exists pre, ts = pre ++ rest /\ okt rest /\ Forall plain_word xs /\ forall r, dotted xs pre r.
Proof.
  induction n as [|n IH]; [easy|]. intros ts xs rest E F. cbn [p_path] in E. destruct (acc "." ts) as [ts1|] eqn:E1.
  - destruct (acc_tok _ _ _ E1 F eq_refl) as (l & -> & F1). destruct (idt ts1) as [(x, ts2)|] eqn:E2; [|discriminate E]. cbn [bind] in E. destruct (idt_tok _ _ _ E2 F1) as (l2 & -> & P & F2).
    destruct (p_path n ts2) as [(xs', ts3)|] eqn:E3; [|discriminate E]. injection E as <- <-. destruct (IH _ _ _ E3 F2) as (pre & -> & F3 & Fx & L).
    exists ((op_tok (asc "."), l) :: (Tok TIdent x, l2) :: pre). repeat split; auto. intros r. cbn [dotted]. build. apply L.
  - injection E as <- <-. exists []. repeat split; auto.
Qed.

(** ** The parser *)
Definition s_ex n := forall prec ts e rest, p_ex n prec ts = Ok (e, rest) -> okt ts ->
  exists pre, ts = pre ++ rest /\ okt rest /\ wf e /\ lay e pre rest /\ allowed_ex prec e /\ stops prec rest /\ (open_end e -> nosuf rest).
Definition s_core n := forall ts e rest, p_core n ts = Ok (e, rest) -> okt ts ->
  exists pre, ts = pre ++ rest /\ okt rest /\ wf e /\ lay e pre rest /\ edge_ex e rest /\ not_bin e /\ edge_end e rest /\ (short_ahead ts = true -> short_exs (XCons e XNil)).
Definition s_loop n := forall prec e0 ts e rest, p_loop n prec e0 ts = Ok (e, rest) -> okt ts -> wf e0 -> allowed_ex prec e0 -> edge_ex e0 ts -> edge_end e0 ts ->
  exists mid, ts = mid ++ rest /\ (forall pre, lay e0 pre ts -> lay e (pre ++ mid) rest) /\ okt rest /\ wf e /\ allowed_ex prec e /\ stops prec rest /\ (open_end e -> nosuf rest).
Definition s_args n := forall ts args rest, p_args n ts = Ok (args, rest) -> okt ts ->
  exists pre l, ts = pre ++ (op_tok (asc ")"), l) :: rest /\ okt rest /\ wf_exs args /\ lay_list args pre ((op_tok (asc ")"), l) :: rest).
Definition s_list n := forall ts es rest, p_list n ts = Ok (es, rest) -> okt ts ->
  exists pre, ts = pre ++ rest /\ okt rest /\ es <> XNil /\ wf_exs es /\ lay_list es pre rest /\ follow_list lang es rest.
Definition s_its n := forall ts i rest, p_its n ts = Ok (i, rest) -> okt ts ->
  exists pre l, ts = pre ++ (op_tok (asc "}"), l) :: rest /\ okt rest /\ wf_its i /\ lay_its i pre ((op_tok (asc "}"), l) :: rest).
Definition s_fun n := forall ts ps b rest, p_fun n ts = Ok ((ps, b), rest) -> okt ts ->
  exists pre, ts = pre ++ rest /\ okt rest /\ Forall param_ok ps /\ wf_blk b /\ (word "(" >> params ps >> word ")" >> lay_blk None b >> word "end") pre rest.
Definition s_if n := forall ts i rest, p_if n ts = Ok (i, rest) -> okt ts -> exists pre, ts = pre ++ rest /\ okt rest /\ wf_ifs i /\ lay_ifs i pre rest.
Definition s_stmt n := forall vl ts s rest, p_stmt n vl ts = Ok (s, rest) -> okt ts -> exists pre, ts = pre ++ rest /\ okt rest /\ wf_st s /\ lay_st vl s pre rest.
Definition s_blk n := forall vl ts b rest, p_blk n vl ts = Ok (b, rest) -> okt ts -> exists pre, ts = pre ++ rest /\ okt rest /\ wf_blk b /\ lay_blk vl b pre rest.
Definition sound n := s_ex n /\ s_core n /\ s_loop n /\ s_args n /\ s_list n /\ s_its n /\ s_fun n /\ s_if n /\ s_stmt n /\ s_blk n.

(** steps through the parser: [E] says what it returns *)
Ltac bd E := match type of E with bind ?m _ = _ => let a := fresh "r" in let t := fresh "t" in let E1 := fresh "E" in
    destruct m as [[a t]|] eqn:E1; [|discriminate E]; cbn [bind] in E end.
Ltac rq E F := match type of E with bind (req ?s ?ts) _ = _ => let t := fresh "t" in let E1 := fresh "E" in let l := fresh "l" in let F1 := fresh "F" in
    destruct (req s ts) as [t|] eqn:E1; [|discriminate E]; cbn [bind] in E; destruct (req_tok _ _ _ E1 F eq_refl) as (l & -> & F1); clear E1 end.
Ltac id E F := match type of E with bind (idt ?ts) _ = _ => let w := fresh "w" in let t := fresh "t" in let E1 := fresh "E" in let l := fresh "l" in let F1 := fresh "F" in let P := fresh "P" in
    destruct (idt ts) as [[w t]|] eqn:E1; [|discriminate E]; cbn [bind] in E; destruct (idt_tok _ _ _ E1 F) as (l & -> & P & F1); clear E1 end.

Lemma ex_step n : s_core n -> s_loop n -> s_ex (S n).
Proof.
  intros IC IL prec ts e rest E F. rewrite eq_ex in E. bd E. destruct (IC _ _ _ E0 F) as (pre & -> & F0 & W & L & Ed & Nb & Ee & _).
  destruct (IL _ _ _ _ _ E F0 W) as (mid & -> & Lm & Fr & We & Al & St & Ns); [now destruct r|easy|easy|].
  exists (pre ++ mid). split; [now norm|]. repeat split; auto.
Qed.
Lemma args_step n : s_list n -> s_args (S n).
Proof.
  intros IL ts args rest E F. rewrite eq_args in E. destruct (acc ")" ts) as [ts1|] eqn:E1.
  - injection E as <- <-. destruct (acc_tok _ _ _ E1 F eq_refl) as (l & -> & F1). exists [], l. rewrite eq_wf_exs_l, eq_lay_list_l. easy.
  - bd E. destruct (IL _ _ _ E0 F) as (pre & -> & F0 & Ne & W & L & Fo). rq E F0. injection E as <- <-. exists pre, l. easy.
Qed.
Lemma list_step n : s_ex n -> s_list n -> s_list (S n).
Proof.
  intros IE IL ts es rest E F. rewrite eq_list in E. bd E. destruct (IE _ _ _ _ E0 F) as (pre & -> & F0 & W & L & _ & St & Ns). destruct (acc "," t) as [ts2|] eqn:E2.
  - destruct (acc_tok _ _ _ E2 F0 eq_refl) as (l & -> & F2). bd E. injection E as <- <-. destruct (IL _ _ _ E1 F2) as (pre2 & -> & F3 & Ne & W2 & L2 & Fo).
    exists (pre ++ (op_tok (asc ","), l) :: pre2). split; [now norm|]. split; [easy|]. split; [easy|]. rewrite eq_wf_exs_l, eq_lay_list_l. split; [easy|]. destruct r0 as [|e2 es]; [easy|]. split; [|exact Fo].
    build; [now norm|easy].
  - injection E as <- <-. exists pre. split; [easy|]. split; [easy|]. split; [easy|]. rewrite eq_wf_exs_l, eq_lay_list_l, eq_wf_exs_l. repeat split; auto.
    + cbn [follow_list]. now apply stops_follow.
    + cbn [follow_list]. now apply acc_next.
Qed.
Lemma fun_step n : s_blk n -> s_fun (S n).
Proof.
  intros IB ts ps b rest E F. rewrite eq_fun in E. bd E. destruct (params_sound _ _ _ _ E0 F) as (l & pp & l2 & -> & F0 & P & Lp). bd E. destruct (IB _ _ _ _ E1 F0) as (pb & -> & F1 & Wb & Lb).
  rq E F1. injection E as <- <- <-. exists ((op_tok (asc "("), l) :: pp ++ (op_tok (asc ")"), l2) :: pb ++ [(op_tok (asc "end"), l0)]). split; [now norm|]. repeat split; auto.
  build; [apply Lp|norm; easy].
Qed.
Lemma blk_step n : s_stmt n -> s_blk n -> s_blk (S n).
Proof.
  intros IS IB vl ts b rest E F. rewrite eq_blk in E. assert (End : (ts = [] \/ next_is closers ts \/ past vl ts) -> Ok (BNil, ts) = Ok (b, rest) -> exists pre, ts = pre ++ rest /\ okt rest /\ wf_blk b /\ lay_blk vl b pre rest).
  { intros H [= <- <-]. exists []. rewrite eq_wf_blk_l, eq_lay_blk_l. repeat split; auto. }
  destruct ts as [|[t l] ts]; [apply End; auto|]. destruct (beyond vl ((t, l) :: ts)) eqn:Eb; [apply End; [|easy]; right; right; now apply past_beyond|].
  destruct (match t with Tok _ v => block_end v | TErr => false end) eqn:Ee.
  { apply End; [|easy]. right. left. destruct t as [ty v|]; [|easy]. cbn [next_is]. now apply existsb_in in Ee. }
  bd E. destruct (IS _ _ _ _ E0 F) as (pre & Et & F0 & Ws & Ls). bd E. destruct (IB _ _ _ _ E1 F0) as (pre2 & -> & F1 & Wb & Lb). injection E as <- <-.
  exists (pre ++ pre2). split; [rewrite Et; now norm|]. split; [easy|]. rewrite eq_wf_blk_l, eq_lay_blk_l. split; [easy|]. apply ahead_seq; [|apply seq_intro; easy].
  rewrite <- app_assoc, <- Et. intros H. apply past_beyond in H. congruence.
Qed.
Lemma then_sound ts w ts1 : acc_then lang ts = Some (w, ts1) -> okt ts -> (w = asc "then" \/ w = asc "do" /\ lang = Pico8) /\ exists l, ts = (op_tok w, l) :: ts1 /\ okt ts1.
Proof.
  unfold acc_then. intros E F. destruct (acc "then" ts) as [t|] eqn:E1.
  - injection E as <- <-. split; [auto|]. now apply acc_tok.
  - destruct (is_pico8 lang) eqn:P; [|discriminate E]. destruct (acc "do" ts) as [t|] eqn:E2; [|discriminate E]. injection E as <- <-. split; [right; split; [easy|now destruct lang]|]. now apply acc_tok.
Qed.
Lemma then_none ts : acc_then lang ts = None -> ~ next_is ["then"]%string ts /\ (lang = Pico8 -> ~ next_is ["do"]%string ts).
Proof.
  unfold acc_then. destruct (acc "then" ts) eqn:E1; [easy|]. intros E. split; [now apply acc_next|]. intros ->. cbn [is_pico8] in E. destruct (acc "do" ts) eqn:E2; [easy|]. now apply acc_next.
Qed.
Lemma prev_paren pre r ty v l c : okt (pre ++ r) -> wf c -> lay c pre r -> prev_tok (pre ++ r) r = Some (Tok ty v, l) -> zeqb_list v (asc ")") = true -> exists p', pre = p' ++ [(pt ")", l)].
Proof.
  intros F W L E Q. apply zeqb_sound in Q. subst v. pose proof (lay_begins lang _ W _ _ L) as (N & _). destruct (prev_end _ _ _ N E) as (p' & ->). exists p'. rewrite !okt_app in F. destruct F as ((_ & F) & _).
  inversion_clear F as [|? ? P _]. cbn [fst] in P. now rewrite (known_tok ")" ty eq_refl P).
Qed.
Lemma if_step n : s_ex n -> s_blk n -> s_if n -> s_if (S n).
Proof.
  intros IE IB II ts i rest E F. rewrite eq_if in E. bd E. destruct (IE _ _ _ _ E0 F) as (pc & -> & F0 & Wc & Lc & _ & St & Ns). destruct (acc_then lang t) as [[w ts1]|] eqn:Et.
  - destruct (then_sound _ _ _ Et F0) as (Hw & lw & -> & F1). bd E. destruct (IB _ _ _ _ E1 F1) as (pb & -> & F2 & Wb & Lb). destruct (acc "else" t) as [ts3|] eqn:E3.
    + destruct (acc_tok _ _ _ E3 F2 eq_refl) as (l3 & -> & F3). bd E. destruct (IB _ _ _ _ E2 F3) as (pb2 & -> & F4 & Wb2 & Lb2). rq E F4. injection E as <- <-.
      exists (pc ++ (op_tok w, lw) :: pb ++ (op_tok (asc "else"), l3) :: pb2 ++ [(op_tok (asc "end"), l)]). split; [now norm|]. split; [easy|]. rewrite eq_wf_ifs_l, eq_lay_ifs_l, eq_wf_els_l, eq_lay_els_l.
      split; [easy|]. build; norm; easy.
    + destruct (acc "elseif" t) as [ts4|] eqn:E4.
      * destruct (acc_tok _ _ _ E4 F2 eq_refl) as (l3 & -> & F3). bd E. destruct (II _ _ _ E2 F3) as (pi & -> & F4 & Wi & Li). injection E as <- <-.
        exists (pc ++ (op_tok w, lw) :: pb ++ (op_tok (asc "elseif"), l3) :: pi). split; [now norm|]. split; [easy|]. rewrite eq_wf_ifs_l, eq_lay_ifs_l, eq_wf_els_l, eq_lay_els_l. split; [easy|]. build; norm; easy.
      * rq E F2. injection E as <- <-. exists (pc ++ (op_tok w, lw) :: pb ++ [(op_tok (asc "end"), l)]). split; [now norm|]. split; [easy|]. rewrite eq_wf_ifs_l, eq_lay_ifs_l, eq_wf_els_l, eq_lay_els_l. split; [easy|]. build; norm; easy.
  - destruct (then_none _ Et) as (Nt & Nd). destruct (prev_tok (pc ++ t) t) as [[[ty v|] l]|] eqn:Ep; try discriminate E. destruct (zeqb_list v (asc ")")) eqn:Q; [|discriminate E].
    destruct (prev_paren _ _ _ _ _ _ F Wc Lc Ep Q) as (p' & Epc). bd E. destruct (IB _ _ _ _ E1 F0) as (pb & -> & F2 & Wb & Lb). pose proof (stops_follow _ _ St Ns F0) as Fo.
    destruct (if on_line l t0 then acc "else" t0 else None) as [ts3|] eqn:E3.
    + destruct (on_line l t0) eqn:Eo; [|discriminate E3]. destruct (acc_tok _ _ _ E3 F2 eq_refl) as (l3 & -> & F3). apply Z.eqb_eq in Eo. subst l3. bd E. destruct (IB _ _ _ _ E2 F3) as (pb2 & -> & F4 & Wb2 & Lb2).
      injection E as <- <-. exists (pc ++ pb ++ (kw "else", l) :: pb2). split; [now norm|]. split; [easy|]. rewrite eq_wf_ifs_l, eq_lay_ifs_l, eq_wf_els_l. split; [easy|]. exists l.
      apply seq_intro; [split; [norm; easy|now exists p']|]. apply ahead_seq; [norm; auto|]. apply seq_intro; [norm; easy|]. apply seq_end; [|now apply nested_line].
      exists [(kw "else", l)], pb2. easy.
    + assert (Ei : IShort (on_line l t0) r r0 ENone = i /\ t0 = rest) by (now injection E). clear E. destruct Ei as (<- & <-). exists (pc ++ pb). split; [now norm|]. split; [easy|]. rewrite eq_wf_ifs_l, eq_lay_ifs_l, eq_wf_els_l. split; [easy|]. exists l.
      apply seq_intro; [split; [norm; easy|now exists p']|]. apply ahead_seq; [norm; auto|]. exists pb, []. rewrite app_nil_r. split; [easy|]. split; [easy|]. exists [], []. split; [easy|]. split; [split; [easy|]|split; [easy|now apply nested_line]].
      intros (H1 & H2). cbn [app] in H1, H2. apply line_same in H1. rewrite H1 in E3. now apply acc_next in E3.
Qed.

(** *** Operands *)
Lemma core_step n : s_ex n -> s_its n -> s_fun n -> s_core (S n).
Proof.
  intros IE II IF ts e rest E F. rewrite eq_core in E. destruct ts as [|[[ty v|] l] ts]; try discriminate E. inversion F as [|? ? Pt F']; subst. cbn [fst] in Pt.
  destruct (const_tok (Tok ty v)) eqn:Ec.
  { injection E as <- <-. exists [(Tok ty v, l)]. split; [easy|]. split; [easy|]. rewrite eq_wf_l, eq_lay_l. split; [|split; [build|]].
    - cbn [const_tok] in Ec. apply orb_prop in Ec as [Ec|Ec].
      + apply existsb_in in Ec. assert (I : In v symbols) by (cbn [map In] in Ec; repeat (destruct Ec as [<-|Ec]; [apply existsb_in; reflexivity|]); easy).
        destruct ty; cbn [proper] in Pt; try (destruct Pt; easy).
        * cbn [constant]. cbn [map In] in Ec. intuition.
        * exfalso. cbn [map In] in Ec. repeat (destruct Ec as [<-|Ec]; [discriminate Pt|]). easy.
      + destruct ty; try discriminate Ec; exact Pt.
    - repeat split. unfold short_ahead. intros H. apply orb_prop in H as [H|H].
      + apply zeqb_sound in H. subst. cbn [const_tok] in Ec. destruct ty; try discriminate Ec; cbn [proper] in Pt; destruct Pt as (N & _); exfalso; apply N; apply existsb_in; reflexivity.
      + cbn [short_exs]. destruct ty; easy. }
  destruct (zeqb_list v (asc "{")) eqn:Q1.
  { apply zeqb_sound in Q1. subst v. bd E. injection E as <- <-. destruct (II _ _ _ E0 F') as (pre & l2 & -> & F0 & W & L). rewrite (known_tok "{" ty eq_refl Pt).
    exists ((op_tok (asc "{"), l) :: pre ++ [(op_tok (asc "}"), l2)]). split; [now norm|]. split; [easy|]. rewrite eq_wf_l, eq_lay_l. split; [easy|]. split; [build; norm; easy|]. repeat split. }
  destruct (zeqb_list v (asc "(")) eqn:Q2.
  { apply zeqb_sound in Q2. subst v. bd E. destruct (IE _ _ _ _ E0 F') as (pre & -> & F0 & W & L & _). rq E F0. injection E as <- <-. rewrite (known_tok "(" ty eq_refl Pt).
    exists ((op_tok (asc "("), l) :: pre ++ [(op_tok (asc ")"), l0)]). split; [now norm|]. split; [easy|]. rewrite eq_wf_l, eq_lay_l. split; [easy|]. split; [build; norm; easy|]. repeat split. intros H; discriminate H. }
  destruct (unary_op lang v) eqn:Q3.
  { unfold k_unary_ops_prec in E. bd E. injection E as <- <-. destruct (IE _ _ _ _ E0 F') as (pre & -> & F0 & W & L & Al & St & Ns). pose proof (proj1 (unary_spec _ _) Q3) as U.
    assert (I : In v symbols). { destruct U as [I|(-> & _)]; [|apply existsb_in; reflexivity]. cbn [map In] in I. repeat (destruct I as [<-|I]; [apply existsb_in; reflexivity|]); easy. }
    rewrite (proper_op ty v Pt I). exists ((op_tok v, l) :: pre). split; [easy|]. split; [easy|]. rewrite eq_wf_l, eq_lay_l. split; [|split; [build; easy|]].
    - split; [easy|]. split; [easy|]. destruct r; try exact Logic.I; cbn [tight_ex]; [lia|]. destruct Al as (q & Eq & C). destruct (prec_nat _ _ Eq) as (k & -> & Lk).
      exists k. split; [easy|]. cbn [compare_prec] in C. destruct (right_binary op); lia.
    - split; [easy|]. split; [easy|]. split; [exact Ns|]. unfold short_ahead, op_tok. rewrite Q1. now destruct (is_keyword v). }
  destruct (zeqb_list v (asc "?")) eqn:Q4; [discriminate E|].
  destruct (zeqb_list v (asc "function")) eqn:Q5.
  { apply zeqb_sound in Q5. subst v. bd E. destruct r as (ps, b). injection E as <- <-. destruct (IF _ _ _ _ E0 F') as (pre & -> & F0 & P & W & L). rewrite (known_tok "function" ty eq_refl Pt).
    exists ((op_tok (asc "function"), l) :: pre). split; [easy|]. split; [easy|]. rewrite eq_wf_l, eq_lay_l. split; [easy|]. split; [apply word_seq; exact L|]. repeat split. intros H; discriminate H. }
  destruct (zeqb_list v (asc "...")) eqn:Q6.
  { apply zeqb_sound in Q6. subst v. injection E as <- <-. rewrite (known_tok "..." ty eq_refl Pt). exists [(op_tok (asc "..."), l)]. rewrite eq_wf_l, eq_lay_l. split; [easy|]. split; [easy|]. split; [easy|]. split; [build|].
    repeat split. intros H; discriminate H. }
  destruct ty; try discriminate E. injection E as <- <-. exists [(Tok TIdent v, l)]. rewrite eq_wf_l, eq_lay_l. split; [easy|]. split; [easy|]. split; [easy|]. split; [build|]. split; [easy|]. split; [easy|]. split; [easy|].
  unfold short_ahead. now rewrite Q1.
Qed.

Lemma loop_step n : s_ex n -> s_core n -> s_loop n -> s_args n -> s_loop (S n).
Proof.
  intros IE IC IL IA prec e0 ts e rest E F G Al Ed Ee. rewrite eq_loop in E.
  assert (Done : stops prec ts -> (prefix_ex e0 = true -> nosuf ts) -> Ok (e0, ts) = Ok (e, rest) -> exists mid, ts = mid ++ rest /\ (forall pre, lay e0 pre ts -> lay e (pre ++ mid) rest) /\
    okt rest /\ wf e /\ allowed_ex prec e /\ stops prec rest /\ (open_end e -> nosuf rest)).
  { intros St Pf [= <- <-]. exists []. split; [easy|]. split; [intros pre L; now rewrite app_nil_r|]. repeat split; auto; try (now destruct St).
    intros O. destruct e0; cbn [open_end edge_end prefix_ex] in *; auto; easy. }
  destruct ts as [|[[ty v|] l] ts]; [now apply Done| |now apply Done]. inversion F as [|? ? Pt F']; subst. cbn [fst] in Pt.
  assert (Cb : forall e, prefix_ex e = true -> callable_ex e) by (intros []; easy).
  assert (Ty : forall s, known s = true -> v = asc s -> Tok ty v = op_tok (asc s)) by (intros s I ->; now apply known_tok).
  (* the loop goes on behind [mid1] with a longer expression *)
  assert (Go : forall mid1 e1 ts1, (Tok ty v, l) :: ts = mid1 ++ ts1 -> okt ts1 -> (forall pre, lay e0 pre (mid1 ++ ts1) -> lay e1 (pre ++ mid1) ts1) -> wf e1 -> allowed_ex prec e1 -> edge_ex e1 ts1 -> edge_end e1 ts1 ->
    p_loop n prec e1 ts1 = Ok (e, rest) -> exists mid, (Tok ty v, l) :: ts = mid ++ rest /\ (forall pre, lay e0 pre ((Tok ty v, l) :: ts) -> lay e (pre ++ mid) rest) /\
    okt rest /\ wf e /\ allowed_ex prec e /\ stops prec rest /\ (open_end e -> nosuf rest)).
  { intros mid1 e1 ts1 Et F1 L1 G1 A1 Ed1 Ee1 El. destruct (IL _ _ _ _ _ El F1 G1 A1 Ed1 Ee1) as (mid & -> & Lm & K). exists (mid1 ++ mid). split; [now norm|]. split; [|exact K].
    intros pre L. rewrite app_assoc. apply Lm. apply L1. now rewrite <- Et. }
  destruct (zeqb_list v (asc ".") && prefix_ex e0) eqn:Q1.
  { apply andb_prop in Q1 as (Q1 & Pe). apply zeqb_sound in Q1. id E F'. rewrite (Ty "."%string) in * by easy.
    apply (Go [(op_tok (asc "."), l); (Tok TIdent w, l0)] (XMem e0 w) t); try easy.
    - intros pre L. rewrite eq_lay_l. build. norm. exact L.
    - rewrite eq_wf_l. auto. }
  destruct (zeqb_list v (asc "[") && prefix_ex e0) eqn:Q2.
  { apply andb_prop in Q2 as (Q2 & Pe). apply zeqb_sound in Q2. bd E. destruct (IE _ _ _ _ E0 F') as (pk & -> & F1 & Wk & Lk & _). rq E F1. rewrite (Ty "["%string) in * by easy.
    apply (Go ((op_tok (asc "["), l) :: pk ++ [(op_tok (asc "]"), l0)]) (XIdx e0 r) t0); try easy.
    - now norm.
    - intros pre L. rewrite eq_lay_l. build; norm; easy.
    - rewrite eq_wf_l. auto. }
  destruct (zeqb_list v (asc "(") && prefix_ex e0) eqn:Q3.
  { apply andb_prop in Q3 as (Q3 & Pe). apply zeqb_sound in Q3. bd E. destruct (IA _ _ _ E0 F') as (pa & l2 & -> & F1 & Wa & La). rewrite (Ty "("%string) in * by easy.
    apply (Go ((op_tok (asc "("), l) :: pa ++ [(op_tok (asc ")"), l2)]) (XCall e0 false r) t); try easy.
    - now norm.
    - intros pre L. rewrite eq_lay_l. build; norm; easy.
    - rewrite eq_wf_l. repeat split; auto. easy. }
  destruct (short_ahead ((Tok ty v, l) :: ts) && prefix_ex e0) eqn:Q4.
  { apply andb_prop in Q4 as (Q4 & Pe). bd E. destruct (IC _ _ _ E0 F) as (pa & Et & F1 & Wa & La & _ & _ & _ & Sh).
    apply (Go pa (XCall e0 true (XCons r XNil)) t); try easy.
    - intros pre L. rewrite eq_lay_l. apply seq_intro; [easy|]. now rewrite eq_lay_list_l.
    - rewrite eq_wf_l, !eq_wf_exs_l. repeat split; auto. }
  destruct (zeqb_list v (asc ":") && prefix_ex e0) eqn:Q5.
  { apply andb_prop in Q5 as (Q5 & Pe). apply zeqb_sound in Q5. id E F'. rewrite (Ty ":"%string) in * by easy. destruct (short_ahead t) eqn:Q6.
    - bd E. destruct (IC _ _ _ E0 F0) as (pa & -> & F1 & Wa & La & _ & _ & _ & Sh).
      apply (Go ((op_tok (asc ":"), l) :: (Tok TIdent w, l0) :: pa) (XMeth e0 w true (XCons r XNil)) t0); try easy.
      + intros pre L. rewrite eq_lay_l. apply seq_intro; [easy|]. apply word_seq, name_seq. now rewrite eq_lay_list_l.
      + rewrite eq_wf_l, !eq_wf_exs_l. repeat split; auto; apply P.
    - rq E F0. bd E. destruct (IA _ _ _ E0 F1) as (pa & l2 & -> & F2 & Wa & La).
      apply (Go ((op_tok (asc ":"), l) :: (Tok TIdent w, l0) :: (op_tok (asc "("), l1) :: pa ++ [(op_tok (asc ")"), l2)]) (XMeth e0 w false r) t); try easy.
      + now norm.
      + intros pre L. rewrite eq_lay_l. build; norm; easy.
      + rewrite eq_wf_l. repeat split; auto; try apply P; easy. }
  assert (Pf : prefix_ex e0 = true -> nosuf ((Tok ty v, l) :: ts)).
  { intros Pe. rewrite Pe, !andb_true_r in *. unfold nosuf. cbn [map fst nosuffix]. unfold short_ahead in Q4. apply orb_false_elim in Q4 as (Q4 & Q4'). split; [|exact Q4'].
    unfold suffix_sym. cbn [map existsb]. now rewrite Q1, Q2, Q3, Q4, Q5. }
  destruct (binary_prec v) as [p|] eqn:Ep.
  2:{ apply Done; [|exact Pf|exact E]. intros q Eq. congruence. }
  destruct (binary_lang lang v && compare_prec v p prec) eqn:Q6.
  2:{ apply Done; [|exact Pf|exact E]. intros q Eq Lq. rewrite Ep in Eq. injection Eq as <-. rewrite Lq in Q6. exact Q6. }
  apply andb_prop in Q6 as (Ql & Qc). bd E. destruct (IE _ _ _ _ E0 F') as (po & -> & F1 & Wo & Lo & Ao & So & No). destruct (prec_nat _ _ Ep) as (k & -> & Lk).
  assert (I : In v symbols).
  { pose proof Ep as Ei. apply prec_get_in in Ei. assert (H : forallb (fun x => existsb (zeqb_list (fst x)) symbols) k_binary_op_precs = true) by (vm_compute; reflexivity).
    rewrite forallb_forall in H. specialize (H _ Ei). now apply existsb_in in H. }
  pose proof (edge_tight_ex v k _ e0 _ _ _ Ep eq_refl Ql Ed) as T1.
  apply (Go ((op_tok v, l) :: po) (XBin v e0 r) t); try easy.
  + rewrite (proper_op ty v Pt I). reflexivity.
  + intros pre L. rewrite eq_lay_l. build; norm; easy.
  + rewrite eq_wf_l. split; [now apply lang_spec|]. split; [easy|]. split; [easy|]. exists k. split; [easy|]. pose proof (allowed_tight_ex v k r Lk Ao) as T2.
    destruct (right_binary v) eqn:Rv; [right; split; [now apply right_spec|easy]|left]. split; [|easy].
    intros Ra. apply right_spec in Ra. congruence.
  + cbn [allowed_ex]. exists (Z.of_nat k). auto.
  + exists (Z.of_nat k). auto.
Qed.

Lemma its_step n : s_ex n -> s_its n -> s_its (S n).
Proof.
  intros IE II ts i rest E F. rewrite eq_its in E. destruct (acc "}" ts) as [ts1|] eqn:E1.
  { injection E as <- <-. destruct (acc_tok _ _ _ E1 F eq_refl) as (l & -> & F1). exists [], l. rewrite eq_wf_its_l, eq_lay_its_l. easy. }
  match type of E with bind ?m _ = _ => destruct m as [(mk, ts1)|] eqn:Em; [|discriminate E] end. cbn [bind] in E.
  (* what the item is *)
  assert (It : exists pre, ts = pre ++ ts1 /\ okt ts1 /\ forall sep i', (sep_ok sep i' -> wf_its i' -> wf_its (mk sep i')) /\
    forall post r, post ++ r = ts1 -> (separated sep >> lay_its i') post r -> lay_its (mk sep i') (pre ++ post) r).
  { assert (Item : ('(e, ts) <- p_ex n None ts;; Ok (IItem e, ts)) = Ok (mk, ts1) -> exists pre, ts = pre ++ ts1 /\ okt ts1 /\ forall sep i', (sep_ok sep i' -> wf_its i' -> wf_its (mk sep i')) /\
      forall post r, post ++ r = ts1 -> (separated sep >> lay_its i') post r -> lay_its (mk sep i') (pre ++ post) r).
    { intros Ei. bd Ei. injection Ei as <- <-. destruct (IE _ _ _ _ E0 F) as (pe & -> & F2 & W & L & _). exists pe. split; [easy|]. split; [easy|]. intros sep i'. rewrite (eq_wf_its_l lang (IItem _ _ _)), (eq_lay_its_l lang (IItem _ _ _)). split; [easy|].
      intros post q <- Lp. apply seq_intro; easy. }
    destruct (acc "[" ts) as [ts2|] eqn:E2.
    - destruct (acc_tok _ _ _ E2 F eq_refl) as (l & -> & F2). bd Em. destruct (IE _ _ _ _ E0 F2) as (pk & -> & F3 & Wk & Lk & _). rq Em F3. rq Em F0. bd Em. injection Em as <- <-.
      destruct (IE _ _ _ _ E3 F1) as (pv & -> & F6 & Wv & Lv & _). exists ((op_tok (asc "["), l) :: pk ++ (op_tok (asc "]"), l0) :: (op_tok (asc "="), l1) :: pv).
      split; [now norm|]. split; [easy|]. intros sep i'. rewrite (eq_wf_its_l lang (IIdx _ _ _ _)), (eq_lay_its_l lang (IIdx _ _ _ _)). split; [easy|]. intros post q <- Lp. norm. build; [norm; easy..|exact Lp].
    - destruct ts as [|t [|[[ty w|] lw] ts]]; try (now apply Item). destruct (zeqb_list w (asc "=")) eqn:Qw; [|now apply Item]. clear Item.
      destruct (idt (t :: (Tok ty w, lw) :: ts)) as [(key, ts3)|] eqn:E3; [|discriminate Em]. cbn [bind] in Em.
      destruct (idt_tok _ _ _ E3 F) as (l & Et & Pk & F3). rq Em F3. bd Em. injection Em as <- <-.
      destruct (IE _ _ _ _ E0 F0) as (pv & -> & F6 & Wv & Lv & _). rewrite Et. exists ((Tok TIdent key, l) :: (op_tok (asc "="), l0) :: pv). split; [easy|]. split; [easy|]. intros sep i'.
      rewrite (eq_wf_its_l lang (IMem _ _ _ _)), (eq_lay_its_l lang (IMem _ _ _ _)). split; [easy|]. intros post q <- Lp. norm. apply name_seq, word_seq, seq_intro; easy. }
  destruct It as (pre & -> & F1 & It). destruct (acc "}" ts1) as [ts2|] eqn:E2.
  { injection E as <- <-. destruct (acc_tok _ _ _ E2 F1 eq_refl) as (l & -> & F2). destruct (It None INil) as (G & L). exists pre, l. split; [easy|]. split; [easy|]. split.
    - apply G; [easy|]. now rewrite eq_wf_its_l.
    - rewrite <- (app_nil_r pre) at 1. apply (L []); [easy|]. apply nothing_seq. now rewrite eq_lay_its_l. }
  match type of E with bind ?m _ = _ => destruct m as [(sep, ts2)|] eqn:Es; [|discriminate E] end. cbn [bind] in E.
  assert (Sp : exists l, ts1 = (Tok TPunct sep, l) :: ts2 /\ okt ts2 /\ (sep = asc "," \/ sep = asc ";")).
  { destruct (acc ";" ts1) as [ts3|] eqn:E3.
    - injection Es as <- <-. destruct (acc_tok _ _ _ E3 F1 eq_refl) as (l & -> & F3). exists l. auto.
    - rq Es F1. injection Es as <- <-. exists l. auto. }
  destruct Sp as (l & -> & F2 & Sp). bd E. injection E as <- <-. destruct (II _ _ _ E0 F2) as (pi & l2 & -> & F3 & Gi & Li). destruct (It (Some sep) r) as (G & L).
  exists (pre ++ (Tok TPunct sep, l) :: pi), l2. split; [now norm|]. split; [easy|]. split; [now apply G|]. apply L; [easy|]. apply tk_seq. exact Li.
Qed.
End Sound.
