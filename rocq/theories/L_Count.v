(** Counting the tokens of a program. *)
From Coq Require Import String List ZArith Lia Bool.
From Verif Require Import M_Base L_Util M_Fold M_Token M_Expr S_Expr L_Expr L_ExprPrint M_Stmt S_Stmt L_Stmt L_StmtEq L_StmtRead M_Emit S_Emit L_Emit L_Emit2 L_Emit7 M_Tidy S_Tidy L_Tidy L_Tidy2 S_Unmin L_Unmin6 M_Count S_Count.
Import ListNotations.
Open Scope nat_scope.

Opaque S_Stmt.wf S_Stmt.wf_exs S_Stmt.wf_its S_Stmt.wf_st S_Stmt.wf_blk S_Stmt.wf_ifs S_Stmt.wf_els.

(** With nothing between the tokens; [a]: a sign may come. *)
Definition numeric (l : list tok) : bool := match l with Tok TNumber _ :: _ => true | _ => false end.
Definition price (a : bool) (t : tok) (l : list tok) : nat :=
  if free_word (tok_value t) then 0 else if sign_word (tok_value t) && numeric l && a then 0 else 1.
Fixpoint cnt (a : bool) (l : list tok) : nat := match l with [] => 0 | t :: l => price a t l + cnt (negb (value_end t)) l end.
Definition allow (p : option tok) : bool := match p with Some p => negb (value_end p) | None => false end.

Lemma sign_same v : sign_word v = is_sign v.
Proof. unfold sign_word, one_of, is_sign. cbn [map existsb]. now rewrite orb_false_r. Qed.
Lemma close_tail x l : signs_close (x :: l) -> signs_close l.
Proof. intros C a p t g n g' b ->. apply (C (x :: a) p t g n g' b). reflexivity. Qed.
Lemma cnt_close l : forall p, match p with Some p => signs_close ((p, true) :: l) | None => signs_close l end -> count p l = cnt (allow p) (map fst l).
Proof.
  induction l as [|(t, g) l IH]; intros p C; [reflexivity|]. cbn [count cnt map fst]. f_equal.
  - unfold cost, price. destruct (free_word _); [reflexivity|]. fold (allow p). rewrite sign_same. destruct (is_sign (tok_value t)) eqn:S; [|reflexivity]. cbn [andb].
    destruct l as [|([[] n|], g') l]; try reflexivity. cbn [before_number numeric map fst andb]. destruct p as [p|]; cbn [allow]; [|now rewrite andb_false_r]. destruct (value_end p) eqn:V; [now rewrite andb_false_r|].
    rewrite (C [] p t g (Tok TNumber n, g') true l eq_refl S); [reflexivity|now exists n|exact V].
  - apply (IH (Some t)). assert (D : signs_close ((t, g) :: l)) by (destruct p; [now apply close_tail in C|exact C]). intros [|x a] p' t' g' n g'' b E S N V.
    + injection E as -> <- E. subst l. now apply (D [] p' t' g' n g b eq_refl).
    + injection E as <- E. subst l. now apply (D ((t, g) :: a) p' t' g' n g'' b eq_refl).
Qed.
Lemma cnt_least l : forall p, cnt (allow p) (map fst l) <= count p l.
Proof.
  induction l as [|(t, g) l IH]; intros p; [cbn; lia|]. cbn [count cnt map fst]. specialize (IH (Some t)). cbn [allow] in IH.
  enough (price (allow p) t (map fst l) <= cost p t g l) by lia. unfold cost, price, allow. destruct (free_word _); [lia|]. destruct (sign_word (tok_value t)); [|cbn; lia]. cbn [andb].
  destruct l as [|([[] n|], g') l]; cbn [before_number numeric map fst andb]; try lia. destruct p as [p|], g; cbn [andb]; try destruct (negb (value_end p)); lia.
Qed.

Lemma one_not l v : (forall s, In s l -> v <> asc s) -> one_of l v = false.
Proof.
  intros N. unfold one_of. apply not_true_iff_false. intros E. apply existsb_exists in E. destruct E as (x & I & E). apply in_map_iff in I. destruct I as (s & <- & I). apply zeqb_list_true in E. now apply (N s).
Qed.
Lemma plain_free v : plain_word v -> free_word v = false /\ sign_word v = false.
Proof.
  intros P. split; apply one_not; intros s I; apply (plain_not _ _ P); cbn in I; repeat destruct I as [<-|I]; try easy; try (right; reflexivity); left; vm_compute; intuition.
Qed.
Lemma cnt_name a x l : plain_word x -> cnt a (Tok TIdent x :: l) = S (cnt false l).
Proof. intros P. destruct (plain_free x P) as (F & G). cbn [cnt price tok_value value_end]. unfold price. cbn [tok_value]. now rewrite F, G. Qed.
Lemma level_free op k : level_of op k -> free_word op = false /\ sign_word op = is_sign op /\ value_end (op_tok op) = false.
Proof.
  intros (ops & s & E & I & -> & _). apply nth_error_In in E. cbn in E. repeat destruct E as [<-|E]; try easy; cbn in I; repeat destruct I as [<-|I]; try easy; vm_compute; auto.
Qed.
Lemma unary_free lang op : unary lang op -> free_word op = false /\ sign_word op = is_sign op /\ value_end (op_tok op) = false.
Proof. intros [I|(-> & _)]; [|vm_compute; auto]. cbn in I. repeat destruct I as [<-|I]; try easy; vm_compute; auto. Qed.
Lemma opok_free lang op : op_ok lang op -> free_word op = false /\ sign_word op = false /\ value_end (Tok TPunct op) = false.
Proof.
  intros ((o & ->) & N & _). assert (A : forall l, forallb (fun s => negb (Z.eqb (last (asc s) 0%Z) 61)) l = true -> one_of l (o ++ asc "=") = false).
  { intros l F. apply one_not. intros s I E. rewrite forallb_forall in F. specialize (F s I). rewrite <- E in F. change (asc "=") with [61%Z] in F. rewrite last_last in F. discriminate F. }
  repeat split; apply A; reflexivity.
Qed.
Lemma first_app m r : forall t, first m = Some t -> exists l, toks m ++ r = t :: l.
Proof. induction m as [|[] m IH]; cbn; intros t0 E; try discriminate; [injection E as ->; eauto| |]; now apply IH. Qed.

Lemma head_items e r : exists l, toks (m_ex e) ++ r = leads e :: l.
Proof.
  revert r. induction e using ex_ind; intros r; cbn [m_ex leads]; unfold tw, tn; rewrite ?toks_app, <- ?app_assoc; cbn [toks app]; eauto.
Qed.
Lemma numeric_lead e r : numeric (toks (m_ex e) ++ r) = number_first e.
Proof. unfold number_first. destruct (head_items e r) as (l & ->). reflexivity. Qed.

Definition calm_after (r : list tok) : Prop := forall a a', cnt a r = cnt a' r.
Lemma calm_word v r ty : sign_word v = false -> calm_after (Tok ty v :: r).
Proof. intros S a a'. cbn [cnt]. unfold price. cbn [tok_value]. now rewrite S. Qed.
Lemma calm_op v r : sign_word v = false -> calm_after (op_tok v :: r). Proof. apply calm_word. Qed.
Lemma calm_nil : calm_after []. Proof. intros a a'. reflexivity. Qed.

Section Count.
Context (lang : language).
Definition N_ex e := wf lang e -> even_ex e -> forall a r, cnt a (toks (m_ex e) ++ r) = if_ (negb a && signed_first e) 1 + size_ex e + cnt (word_last e) r.
Definition N_exs es := (wf_exs lang es -> even_exs es -> forall a r, calm_after r -> (a = true \/ match es with XCons e _ => signed_first e = false | XNil => True end) ->
  cnt a (toks (m_exs es) ++ r) = size_exs es + cnt false r) /\ match es with XCons e XNil => N_ex e | _ => True end.
Definition N_its i := wf_its lang i -> even_its i -> forall a semi r, calm_after r -> (a = negb semi \/ i = INil) -> cnt a (toks (m_its i) ++ r) = size_its semi i + cnt false r.
Definition N_st s := wf_st lang s -> even_st s -> forall a r, calm_after r -> cnt a (toks (m_st s) ++ r) = size_st s + cnt false r.
Definition N_blk b := wf_blk lang b -> even_blk b -> forall a r, calm_after r -> cnt a (toks (m_blk b) ++ r) = size_blk b + cnt false r.
Definition N_ifs i := wf_ifs lang i -> even_ifs i -> forall w a r, In w ["if"; "elseif"]%string -> calm_after r -> cnt a (toks (m_ifs w i) ++ r) = size_ifs i + cnt false r.
Definition N_els e := (wf_els lang e -> even_els e -> forall a r, calm_after r -> cnt a (toks (m_els e) ++ r) = size_els e + cnt false r) /\ match e with EElse b => N_blk b | _ => True end.

(** Words and names. *)
Lemma cnt_params ps a r : Forall param_ok ps -> cnt a (toks (m_params ps) ++ op_tok (asc ")") :: r) = length ps + cnt false r.
Proof.
  intros F. assert (P : forall p a l, param_ok p -> exists a', cnt a (toks (m_param p) ++ l) = S (cnt a' l)).
  { intros [x|] a0 l Ok; cbn [m_param]; unfold tw, tn; cbn [toks app]; [exists false; now apply cnt_name|]. now exists true. }
  revert a. induction F as [|p ps Hp F IH]; intros a; [reflexivity|]. cbn [m_params]. destruct ps as [|q ps].
  - destruct (P p a (op_tok (asc ")") :: r) Hp) as (a' & ->). reflexivity.
  - rewrite !toks_app, <- !app_assoc. destruct (P p a (toks (tw ",") ++ toks (m_params (q :: ps)) ++ op_tok (asc ")") :: r) Hp) as (a' & ->). change (length (p :: q :: ps)) with (S (length (q :: ps))). cbn [plus]. f_equal. unfold tw. cbn [toks app]. rewrite <- (IH true). reflexivity.
Qed.
Lemma cnt_vars xs a r : xs <> [] -> Forall (attr_ok lang) xs -> calm_after r -> cnt a (toks (m_vars xs) ++ r) = list_sum (map var_size xs) + cnt false r.
Proof.
  intros N F C. assert (P : forall x a l, attr_ok lang x -> exists a', cnt a (toks (m_var x) ++ l) = var_size x + cnt a' l).
  { intros (x, [at_|]) a0 l (Ok & A); unfold m_var, var_size, tw, tn; cbn [fst snd toks app]; [|exists false; now apply cnt_name]. exists true. rewrite cnt_name by exact Ok. destruct A as ([-> | ->] & _); reflexivity. }
  revert a N. induction F as [|x xs Hx F IH]; intros a N; [easy|]. cbn [m_vars map list_sum fold_right]. destruct xs as [|y xs].
  - destruct (P x a r Hx) as (a' & ->). rewrite (C a' false). cbn. lia.
  - rewrite !toks_app, <- !app_assoc. match goal with |- cnt a (_ ++ ?l) = _ => destruct (P x a l Hx) as (a' & ->) end. unfold tw. cbn [toks app]. change (cnt a' (op_tok (asc ",") :: ?l)) with (cnt true l). rewrite IH by easy. cbn [map list_sum fold_right]. unfold list_sum. cbn. lia.
Qed.
Lemma cnt_names xs a r : xs <> [] -> Forall plain_word xs -> calm_after r -> cnt a (toks (m_names xs) ++ r) = length xs + cnt false r.
Proof.
  intros N F C. revert a N. induction F as [|x xs Hx F IH]; intros a N; [easy|]. cbn [m_names length]. destruct xs as [|y xs].
  - unfold tn. cbn [toks app]. now rewrite cnt_name.
  - rewrite !toks_app, <- !app_assoc. unfold tn, tw. cbn [toks app]. rewrite cnt_name by exact Hx. change (cnt ?a (op_tok (asc ",") :: ?l)) with (cnt true l). rewrite IH by easy. reflexivity.
Qed.
Lemma cnt_dotted xs a r : Forall plain_word xs -> calm_after r -> cnt a (toks (m_dotted xs) ++ r) = length xs + cnt false r.
Proof.
  intros F C. revert a. induction F as [|x xs Hx F IH]; intros a; [apply C|]. cbn [m_dotted length]. rewrite !toks_app, <- !app_assoc. unfold tn, tw. cbn [toks app]. change (cnt ?a (op_tok (asc ".") :: ?l)) with (cnt true l). rewrite cnt_name by exact Hx. rewrite IH. reflexivity.
Qed.
Lemma callable_unsigned e : callable_ex e -> wf lang e -> signed_first e = false.
Proof.
  induction e using ex_ind; cbn [callable_ex signed_first]; try easy; intros _ W; rewrite eq_wf_l in W; cbv iota in W; match goal with H : callable_ex ?e -> _ |- signed_first ?e = _ => apply H; easy end.
Qed.
Lemma short_unsigned args : short_exs args -> match args with XCons e _ => signed_first e = false | XNil => True end.
Proof. destruct args as [|[] ?]; try easy. Qed.

Ltac split_ands := repeat match goal with H : _ /\ _ |- _ => destruct H end.
Ltac norm := unfold tw, tn; repeat first [rewrite toks_short|rewrite toks_app|rewrite <- app_assoc|progress cbn [app toks]].
Ltac calm := first [assumption|apply calm_op; reflexivity|apply calm_nil].
Ltac words := repeat match goal with
  | |- context [cnt ?a (op_tok (asc ?s) :: ?l)] => let x := eval vm_compute in (if free_word (asc s) then 0 else 1) in let y := eval vm_compute in (negb (value_end (op_tok (asc s)))) in
      change (cnt a (op_tok (asc s) :: l)) with (x + cnt y l)
  | H : plain_word ?x |- context [cnt ?a (Tok TIdent ?x :: ?l)] => rewrite (cnt_name a x l H)
  | H : Forall param_ok ?ps |- context [cnt ?a (toks (m_params ?ps) ++ op_tok _ :: ?r)] => rewrite (cnt_params ps a r H)
  | H : N_ex ?e, W : wf _ ?e, E : even_ex ?e |- context [cnt ?a (toks (m_ex ?e) ++ ?r)] => rewrite (H W E a r)
  | H : N_blk ?e, W : wf_blk _ ?e, E : even_blk ?e |- context [cnt ?a (toks (m_blk ?e) ++ ?r)] => rewrite (H W E a r) by calm
  | H : N_exs ?e, W : wf_exs _ ?e, E : even_exs ?e |- context [cnt true (toks (m_exs ?e) ++ ?r)] => rewrite (proj1 H W E true r ltac:(calm) (or_introl eq_refl))
  end; cbn [negb andb if_ plus]; try rewrite andb_false_r; cbn [if_].
Ltac fin := lia || match goal with C : calm_after ?r |- context [cnt ?a ?r] => rewrite (C a false); lia end.
Theorem all_count : (forall e, N_ex e) /\ (forall e, N_exs e) /\ (forall e, N_its e) /\ (forall e, N_st e) /\ (forall e, N_blk e) /\ (forall e, N_ifs e) /\ (forall e, N_els e).
Proof.
  apply prog_all.
  all: try (intros; intros W E; rewrite eq_wf_l in W; cbv iota in W; cbn [even_ex] in E; split_ands; intros a rest; cbn [m_ex size_ex signed_first word_last]; norm; words; try fin).
  all: try (intros; intros W E; rewrite eq_wf_st_l in W; cbv iota in W; cbn [even_st] in E; split_ands; intros a0 rest Ca; cbn [m_st size_st]; norm; words; try fin).
  - cbn [cnt]. destruct t as [[] v|]; try easy; cbn [constant] in W.
    + destruct (plain_free v W) as (F & G). unfold price. cbn [tok_value value_end negb]. now rewrite F, G.
    + destruct W as [-> |[-> | ->]]; reflexivity.
    + destruct (plain_free v W) as (F & G). unfold price. cbn [tok_value value_end negb]. now rewrite F, G.
  - destruct (unary_free lang op) as (F & G & V); [assumption|]. cbn [cnt]. rewrite V. cbn [negb]. words. unfold price. cbn [op_tok tok_value]. rewrite F, G, numeric_lead. destruct a, (is_sign op), (number_first e); cbn [negb andb if_]; lia.
  - match goal with H : exists k, level_of op k /\ _ |- _ => destruct H as (k & K & _) end. destruct (level_free op k K) as (F & G & V). cbn [cnt]. rewrite V. cbn [negb]. words. unfold price. cbn [op_tok tok_value]. rewrite F, G, numeric_lead.
    match goal with H : sign_like op && _ && _ = false |- _ => unfold sign_like in H end. destruct (is_sign op), (word_last l), (number_first r); cbn [negb andb orb if_] in *; try discriminate; lia.
  - destruct short; norm; words; [|lia]. match goal with H : true = true -> short_exs args |- _ => specialize (H eq_refl) end. destruct H0 as (H0 & X). destruct args as [|e [|]]; try easy; [|now destruct e as [[[] ?|]| | | | | | | | | | |]].
    rewrite eq_wf_exs_l in *. cbn [even_exs m_exs size_exs] in *. split_ands. words. rewrite (short_unsigned (XCons e XNil)) by assumption. rewrite andb_false_r. cbn [if_]. destruct e as [[[] ?|]| | | | | | | | | | |]; try easy; cbn [word_last]; lia.
  - destruct short; norm; words; [|lia]. match goal with H : true = true -> short_exs args |- _ => specialize (H eq_refl) end. destruct H0 as (H0 & X). destruct args as [|e0 [|]]; try easy; [|now destruct e0 as [[[] ?|]| | | | | | | | | | |]].
    rewrite eq_wf_exs_l in *. cbn [even_exs m_exs size_exs] in *. split_ands. words. rewrite (short_unsigned (XCons e0 XNil)) by assumption. cbn [if_]. destruct e0 as [[[] ?|]| | | | | | | | | | |]; try easy; cbn [word_last]; lia.
  - rewrite (H W E true false) by (try calm; now left). words. lia.
  - split; [|exact I]. intros _ _ a r C _. cbn [m_exs toks app size_exs plus]. apply C.
  - intros e E es Es. split; [|now destruct es]. intros W V a r C A. rewrite (eq_wf_exs_l lang (XCons _ _)) in W. cbn [even_exs] in V. split_ands. assert (X : if_ (negb a && signed_first e) 1 = 0) by (destruct A as [-> | ->]; [reflexivity|now rewrite andb_false_r]).
    destruct es as [|e' es].
    + cbn [m_exs size_exs]. words. rewrite X. fin.
    + change (m_exs (XCons e (XCons e' es))) with (m_ex e ++ T (op_tok (asc ",")) :: m_exs (XCons e' es)). change (size_exs (XCons e (XCons e' es))) with (size_ex e + size_exs (XCons e' es)). rewrite toks_app, <- app_assoc. cbn [toks app]. words. rewrite X. lia.
  - intros _ _ a semi r C _. cbn [m_its toks app size_its plus]. apply C.
  - intros k K v V sep i IH W E a semi r C A. rewrite (eq_wf_its_l lang (IIdx _ _ _ _)) in W. cbn [even_its] in E. split_ands. cbn [m_its size_its]. norm. words. destruct sep as [sep|]; cbn [m_sep toks app by_semi].
    + match goal with H : sep_ok _ _ |- _ => destruct H as [-> | ->] end; [change (cnt ?x (Tok TPunct (asc ",") :: ?l)) with (cnt true l); change (zeqb_list (asc ",") (asc ";")) with false; rewrite (IH ltac:(assumption) ltac:(assumption) true false r C (or_introl eq_refl))|change (cnt ?x (Tok TPunct (asc ";") :: ?l)) with (cnt false l); change (zeqb_list (asc ";") (asc ";")) with true; rewrite (IH ltac:(assumption) ltac:(assumption) false true r C (or_introl eq_refl))]; lia.
    + match goal with H : sep_ok _ _ |- _ => cbn in H; subst i end. rewrite (IH I I _ false r C (or_intror eq_refl)). cbn. lia.
  - intros key v V sep i IH W E a semi r C A. rewrite (eq_wf_its_l lang (IMem _ _ _ _)) in W. cbn [even_its] in E. split_ands. cbn [m_its size_its]. norm. words. destruct sep as [sep|]; cbn [m_sep toks app by_semi].
    + match goal with H : sep_ok _ _ |- _ => destruct H as [-> | ->] end; [change (cnt ?x (Tok TPunct (asc ",") :: ?l)) with (cnt true l); change (zeqb_list (asc ",") (asc ";")) with false; rewrite (IH ltac:(assumption) ltac:(assumption) true false r C (or_introl eq_refl))|change (cnt ?x (Tok TPunct (asc ";") :: ?l)) with (cnt false l); change (zeqb_list (asc ";") (asc ";")) with true; rewrite (IH ltac:(assumption) ltac:(assumption) false true r C (or_introl eq_refl))]; lia.
    + match goal with H : sep_ok _ _ |- _ => cbn in H; subst i end. rewrite (IH I I _ false r C (or_intror eq_refl)). cbn. lia.
  - intros v V sep i IH W E a semi r C A. rewrite (eq_wf_its_l lang (IItem _ _ _)) in W. cbn [even_its] in E. split_ands. destruct A as [-> |A]; [|discriminate A]. cbn [m_its size_its]. norm. words. rewrite negb_involutive. destruct sep as [sep|]; cbn [m_sep toks app by_semi].
    + match goal with H : sep_ok _ _ |- _ => destruct H as [-> | ->] end; [change (cnt ?x (Tok TPunct (asc ",") :: ?l)) with (cnt true l); change (zeqb_list (asc ",") (asc ";")) with false; rewrite (IH ltac:(assumption) ltac:(assumption) true false r C (or_introl eq_refl))|change (cnt ?x (Tok TPunct (asc ";") :: ?l)) with (cnt false l); change (zeqb_list (asc ";") (asc ";")) with true; rewrite (IH ltac:(assumption) ltac:(assumption) false true r C (or_introl eq_refl))]; lia.
    + match goal with H : sep_ok _ _ |- _ => cbn in H; subst i end. rewrite (IH I I _ false r C (or_intror eq_refl)). cbn. lia.
  - apply H; auto. now left.
  - destruct step as [|s []]; try easy; norm; words; [cbn [size_exs]; lia|]. lia.
  - rewrite cnt_names by (assumption || calm). words. lia.
  - destruct es; norm; words.
    + rewrite cnt_vars by assumption. cbn [size_exs]. lia.
    + rewrite cnt_vars by (assumption || calm). words. lia.
  - rewrite cnt_dotted; [|assumption|destruct meth; norm; calm]. destruct meth as [m|]; norm; words; [|lia]. match goal with H : param_ok (Some _) |- _ => cbn in H end. words. lia.
  - destruct targets as [|e targets]; [easy|]. match goal with H : N_exs (XCons e targets) |- _ => rewrite (proj1 H ltac:(assumption) ltac:(assumption) a0) end; [words; lia|calm|]. right.
    assumption.
  - match goal with H : signed_first target = false |- _ => rename H into X end. rewrite X, andb_false_r. cbn [if_]. destruct (opok_free lang op) as (F & G & V); [assumption|]. cbn [cnt]. rewrite V. unfold price. cbn [tok_value]. rewrite F, G. cbn [negb andb]. words. fin.
  - rewrite (callable_unsigned e) by (try assumption; now destruct e). rewrite andb_false_r. cbn [if_]. fin.
  - intros _ _ a r C. apply C.
  - intros s S b B W E a r C. rewrite (eq_wf_blk_l lang (BCons _ _)) in W. cbn [even_blk] in E. split_ands. cbn [m_blk size_blk]. rewrite toks_app, <- app_assoc.
    rewrite S; try assumption; [words; lia|]. intros a1 a2. now rewrite !(B ltac:(assumption) ltac:(assumption) _ r C).
  - intros th c C b B e (E & _) W V w a r I Ca. rewrite eq_wf_ifs_l in W. cbv iota in W. cbn [even_ifs] in V. split_ands. cbn [m_ifs size_ifs]. norm.
    assert (Q : forall l, cnt a (op_tok (asc w) :: l) = S (cnt true l)) by (intros l; repeat destruct I as [<-|I]; easy). rewrite Q. words.
    assert (Z : forall a l, cnt a (op_tok th :: l) = S (cnt true l)) by (intros a0 l; match goal with H : _ \/ _ |- _ => destruct H as [-> |(-> & _)] end; reflexivity). rewrite Z.
    rewrite (B ltac:(assumption) ltac:(assumption)); [rewrite E by assumption; lia|]. intros a1 a2. now rewrite !E.
  - intros n c C b B e (_ & E) W V w a r I Ca. rewrite eq_wf_ifs_l in W. cbv iota in W. cbn [even_ifs] in V. split_ands. cbn [m_ifs size_ifs]. norm.
    assert (Q : forall l, cnt a (op_tok (asc w) :: l) = S (cnt true l)) by (intros l; repeat destruct I as [<-|I]; easy). rewrite Q. words.
    destruct e as [|b'|i]; [cbn [toks app]|cbn [even_els] in *; rewrite eq_wf_els_l in *; norm|easy]; words; cbn [size_els]; fin.
  - split; [|exact I]. intros _ _ a r C. cbn [m_els size_els]. norm. words. lia.
  - intros b B. split; [|exact B]. intros W E a r C. rewrite eq_wf_els_l in W. cbn [even_els] in E. cbn [m_els size_els]. norm. words. lia.
  - intros i H. split; [|exact I]. intros W E a r C. rewrite eq_wf_els_l in W. cbn [m_els size_els]. apply H; auto. right. now left.
Qed.
Lemma count_toks b : wf_blk lang b -> even_blk b -> forall a, cnt a (toks (m_blk b)) = size_blk b.
Proof. intros W E a. destruct all_count as (_ & _ & _ & _ & B & _). rewrite <- (app_nil_r (toks _)), (B b W E a [] calm_nil). cbn. lia. Qed.
End Count.
