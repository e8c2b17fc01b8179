(** The tokens of a program are read back as that program: expressions. *)
From Coq Require Import String List ZArith Lia Bool.
From Verif Require Import M_Base L_Util M_Fold M_Token M_Expr S_Expr L_Expr L_ExprSound L_ExprPrint M_Stmt S_Stmt L_Stmt.
Import ListNotations.
Open Scope Z_scope.

Ltac cond := repeat match goal with |- context [zeqb_list (asc ?a) (asc ?b)] => let v := eval vm_compute in (zeqb_list (asc a) (asc b)) in change (zeqb_list (asc a) (asc b)) with v end; cbn [andb orb].

Section Read.
Context (lang : language).
Notation p_ex := (p_ex lang).
Notation p_core := (p_core lang).
Notation p_loop := (p_loop lang).
Notation p_args := (p_args lang).
Notation p_list := (p_list lang).
Notation p_its := (p_its lang).
Notation p_fun := (p_fun lang).
Notation wf := (wf lang).
Notation wf_exs := (wf_exs lang).
Notation wf_its := (wf_its lang).
Notation lay := (lay lang).
Notation lay_list := (lay_list lang).
Notation lay_its := (lay_its lang).
Notation lay_blk := (lay_blk lang).
Opaque M_Stmt.p_ex M_Stmt.p_core M_Stmt.p_loop M_Stmt.p_args M_Stmt.p_list M_Stmt.p_its M_Stmt.p_fun M_Stmt.p_if M_Stmt.p_stmt M_Stmt.p_blk.


(** ** Tokens *)
Definition wd (s : string) : tok := op_tok (asc s).
Lemma acc_word s l rest : acc s ((op_tok (asc s), l) :: rest) = Some rest.
Proof. unfold acc, op_tok. now rewrite zeqb_list_refl. Qed.
Lemma req_word s l rest : req s ((op_tok (asc s), l) :: rest) = Ok rest.
Proof. unfold req. now rewrite acc_word. Qed.
Lemma acc_not s t rest : hd_not [s] [fst t] -> acc s (t :: rest) = None.
Proof.
  destruct t as [[ty v|] l]; [|easy]. cbn [hd_not fst map In acc]. intros H. destruct (zeqb_list v (asc s)) eqn:E; [|easy]. apply zeqb_sound in E. subst. destruct H. now left.
Qed.
Lemma acc_hd s l ts : hd_not l (map fst ts) -> In s l -> acc s ts = None.
Proof.
  destruct ts as [|[[ty v|] ln] ts]; [easy| |easy]. cbn [hd_not fst map acc]. intros H I. destruct (zeqb_list v (asc s)) eqn:E; [|easy].
  apply zeqb_sound in E. subst. destruct H. now apply in_map.
Qed.
Lemma acc_other s s' l rest : zeqb_list (asc s') (asc s) = false -> acc s ((op_tok (asc s'), l) :: rest) = None.
Proof. unfold acc, op_tok. now intros ->. Qed.
Lemma idt_name x l rest : idt ((Tok TIdent x, l) :: rest) = Ok (x, rest).
Proof. reflexivity. Qed.

(** The words that begin no expression (and no name), except "function". *)
Definition noexpr : list string := [")"; "}"; "["; "="; ","; ";"; "]"; ":"; "."; "<"; ">"; "::"; "?"; "do"; "if"; "while"; "repeat"; "for"; "break"; "return"; "local"; "goto";
  "end"; "else"; "elseif"; "until"; "then"; "in"]%string.
Lemma noexpr_plain v : plain_word v -> ~ In v (map asc noexpr).
Proof.
  intros (N & K) I. apply in_map_iff in I as (s & <- & I). unfold noexpr in I. cbn [In] in I.
  repeat (destruct I as [<-|I]; [first [discriminate K | apply N; apply existsb_in; reflexivity]|]). easy.
Qed.
Lemma hd_sub l l' ts : incl l' l -> hd_not l ts -> hd_not l' ts.
Proof. intros I. destruct ts as [|[ty v|] ts]; [easy| |easy]. cbn. intros H J. apply H. apply in_map_iff in J as (s & <- & J). apply in_map. now apply I. Qed.
Definition begins (ts : list ltok) : Prop := ts <> [] /\ hd_not noexpr (map fst ts).
Lemma begins_app a b : begins a -> begins (a ++ b).
Proof. intros (N & H). destruct a; [easy|]. split; [easy|exact H]. Qed.
Lemma begins_word s l ts : hd_not noexpr [wd s] -> begins ((op_tok (asc s), l) :: ts).
Proof. intros H. split; [easy|exact H]. Qed.
Ltac begin_sym := apply begins_word; unfold wd; now apply not_in.
Lemma un_begins op : unary lang op -> hd_not noexpr [op_tok op].
Proof.
  intros U. unfold op_tok. cbn [hd_not]. apply not_in. destruct U as [I|(-> & _)]; [|reflexivity]. cbn [map In] in I. repeat (destruct I as [<-|I]; [reflexivity|]). easy.
Qed.
Lemma lay_begins e : wf e -> forall ts rest, lay e ts rest -> begins ts.
Proof.
  induction e; cbn [S_Stmt.wf S_Stmt.lay]; intros W ts rest L.
  - destruct L as (l & ->). split; [easy|]. destruct t as [[] v|]; try easy; cbn [constant] in W; try (now apply noexpr_plain).
    destruct W as [->|[->| ->]]; now apply not_in.
  - destruct L as (l & ->). begin_sym.
  - destruct L as (l & ->). split; [easy|]. now apply noexpr_plain.
  - destruct L as (a & b & -> & (l & ->) & _). begin_sym.
  - destruct L as (a & b & -> & (l & ->) & _). begin_sym.
  - destruct L as (a & b & -> & (l & ->) & _). split; [easy|]. now apply un_begins.
  - destruct L as (a & b & -> & L & _). apply begins_app. now apply (IHe1 ltac:(tauto) _ _ L).
  - destruct L as (a & b & -> & L & _). apply begins_app. now apply (IHe ltac:(tauto) _ _ L).
  - destruct L as (a & b & -> & L & _). apply begins_app. now apply (IHe1 ltac:(tauto) _ _ L).
  - destruct L as (a & b & -> & L & _). apply begins_app. now apply (IHe ltac:(tauto) _ _ L).
  - destruct L as (a & b & -> & L & _). apply begins_app. now apply (IHe ltac:(tauto) _ _ L).
  - destruct L as (a & b & -> & (l & ->) & _). begin_sym.
Qed.
Lemma begins_hd s ts : begins ts -> In s noexpr -> hd_not [s] (map fst ts).
Proof. intros (_ & H) I. apply (hd_sub noexpr); [|easy]. intros x [<-|[]]. exact I. Qed.
Ltac in_list := cbv [noexpr]; cbn [In]; tauto.
Definition second_not (ts : list ltok) : Prop := match ts with _ :: ts => hd_not ["="]%string (map fst ts) | [] => True end.
Lemma word_hd s (l : Z) (ts : list ltok) : zeqb_list (asc s) (asc "=") = false -> hd_not ["="]%string (map fst ((op_tok (asc s), l) :: ts)).
Proof. intros E. cbn [map fst]. unfold op_tok. apply not_in. cbn [map existsb]. now rewrite E. Qed.
Lemma begins_eq ts rest : begins ts -> hd_not ["="]%string (map fst (ts ++ rest)).
Proof. intros B. apply begins_hd; [now apply begins_app|in_list]. Qed.
Lemma plain_hd s v (l : Z) (ts : list ltok) : plain_word v -> In (asc s) symbols -> hd_not [s] (map fst ((Tok TIdent v, l) :: ts)).
Proof. intros P I. unfold hd_not. cbn [map fst]. apply (plain_not_in v [s]); [easy|]. now intros x [<-|[]]. Qed.
Lemma its_hd i ts rest l r : wf_its i -> lay_its i ts rest -> hd_not ["="]%string (map fst (ts ++ (op_tok (asc "}"), l) :: r)).
Proof.
  destruct i; cbn [S_Stmt.wf_its S_Stmt.lay_its].
  - intros _ ->. now apply word_hd.
  - intros _ (a & b & -> & (la & ->) & _). now apply word_hd.
  - intros (P & _) (a & b & -> & (la & ->) & _). cbn [app]. apply plain_hd; [easy|]. apply existsb_in. reflexivity.
  - intros (W & _) (a & b & -> & L & _). rewrite <- app_assoc. apply begins_eq. now apply (lay_begins _ W _ _ L).
Qed.
Lemma lay_second e : wf e -> forall ts rest, lay e ts rest -> forall r, hd_not ["="]%string (map fst r) -> second_not (ts ++ r).
Proof.
  induction e; cbn [S_Stmt.wf S_Stmt.lay]; intros W ts rest L r H.
  - destruct L as (l & ->). exact H.
  - destruct L as (l & ->). exact H.
  - destruct L as (l & ->). exact H.
  - destruct L as (a & b & -> & (l & ->) & (a2 & b2 & -> & (l2 & ->) & _)). now apply word_hd.
  - destruct L as (a & b & -> & (l & ->) & (a2 & b2 & -> & L & _)). cbn [app second_not]. rewrite <- app_assoc. apply begins_eq. now apply (lay_begins _ W _ _ L).
  - destruct L as (a & b & -> & (l & ->) & L). cbn [app second_not]. apply begins_eq. destruct W as (_ & W & _). now apply (lay_begins _ W _ _ L).
  - destruct L as (a & b & -> & L & (a2 & b2 & -> & (l2 & ->) & _)). rewrite <- app_assoc. destruct W as (_ & Wl & _ & k & Lk & _). apply (IHe1 Wl _ _ L). cbn [app map fst].
    unfold op_tok. cbn [hd_not]. apply not_in. cbn [map existsb]. destruct (zeqb_list op (asc "=")) eqn:E; [|easy]. apply zeqb_sound in E. subst. apply level_prec in Lk. vm_compute in Lk. discriminate Lk.
  - destruct L as (a & b & -> & L & (a2 & b2 & -> & (l2 & ->) & _)). rewrite <- app_assoc. apply (IHe ltac:(tauto) _ _ L). now apply word_hd.
  - destruct L as (a & b & -> & L & (a2 & b2 & -> & (l2 & ->) & _)). rewrite <- app_assoc. apply (IHe1 ltac:(tauto) _ _ L). now apply word_hd.
  - destruct L as (a & b & -> & L & L2). rewrite <- app_assoc. destruct W as (_ & Wf & Wa & Sh). apply (IHe Wf _ _ L). destruct short.
    + specialize (Sh eq_refl). destruct args as [|e2 [|? ?]]; try easy; cbn [S_Stmt.lay_list] in L2; [|now destruct e2 as [[[]|]| | | | | | | | | | |]]. apply begins_eq. cbn [S_Stmt.wf_exs] in Wa. now apply (lay_begins _ (proj1 Wa) _ _ L2).
    + destruct L2 as (a3 & b3 & -> & (l3 & ->) & _). now apply word_hd.
  - destruct L as (a & b & -> & L & (a2 & b2 & -> & (l2 & ->) & _)). rewrite <- app_assoc. apply (IHe ltac:(tauto) _ _ L). now apply word_hd.
  - destruct L as (a & b & -> & (l & ->) & (a2 & b2 & -> & L & (l2 & ->))). cbn [app second_not]. rewrite <- app_assoc. now apply (its_hd its _ _ _ _ W L).
Qed.

(** ** What can follow *)
Lemma stops_more k n rest : (k <= n)%nat -> L_ExprSound.op_stops lang (Some (Z.of_nat k)) rest -> L_ExprSound.op_stops lang (Some (Z.of_nat n)) rest.
Proof.
  intros L. destruct rest as [|[ty v|] rest]; try easy. cbn [L_ExprSound.op_stops]. intros H p E El. specialize (H p E El).
  unfold compare_prec in *. destruct (right_binary v); lia.
Qed.
Lemma stops_pow rest : L_ExprSound.op_stops lang (Some 12) rest -> L_ExprSound.op_stops lang (Some 11) rest.
Proof.
  destruct rest as [|[ty v|] rest]; try easy. cbn [L_ExprSound.op_stops]. intros H p E El. specialize (H p E El).
  destruct (prec_nat _ _ E) as (k & -> & Lk). pose proof (level_range _ _ Lk) as R. unfold compare_prec in *. destruct (right_binary v) eqn:Rv; [lia|].
  assert (k <> 12%nat); [|lia]. intros ->. apply (right_level _ _ Lk) in Rv || (assert (right_assoc v) by (apply (right_level _ _ Lk); auto)). apply right_spec in H0. congruence.
Qed.
Definition stops (k : option Z) (rest : list ltok) : Prop := op_stops lang k (map fst rest).
Definition nosuf (rest : list ltok) : Prop := nosuffix (map fst rest).
Definition allowed_ex (prec : option Z) (e : ex) : Prop :=
  match e with XBin op _ _ => exists q, binary_prec op = Some q /\ compare_prec op q prec = true | _ => True end.
Definition edge_ex (e : ex) (rest : list ltok) : Prop :=
  match e with
  | XBin op _ _ => exists q, binary_prec op = Some q /\ stops (Some q) rest
  | XUn _ _ => stops (Some 11) rest
  | _ => True
  end.
Definition edge_end (e : ex) (rest : list ltok) : Prop := match e with XBin _ _ _ | XUn _ _ => open_end e -> nosuf rest | _ => True end.
Definition core_ex (e : ex) : Prop :=
  match e with XConst _ | XDots | XVar _ | XFun _ _ | XGroup _ | XUn _ _ | XTab _ => True | _ => False end.
Definition not_bin (e : ex) : Prop := match e with XBin _ _ _ => False | _ => True end.
Lemma prefix_open e : prefix_ex e = true -> open_end e.
Proof. now destruct e. Qed.
Lemma loop_stop prec e rest : stops prec rest -> (prefix_ex e = true -> nosuf rest) -> runs (fun f => p_loop f prec e rest) (e, rest).
Proof.
  intros St Ns. apply runs_step. exists O. intros m _. rewrite eq_loop. destruct rest as [|[[ty v|] l] rest]; try easy. unfold stops, nosuf in *. cbn [map fst] in *.
  assert (Bin : match binary_prec v with
    | Some p => if binary_lang lang v && compare_prec v p prec then '(other, ts1) <- p_ex m (Some p) rest;; p_loop m prec (XBin v e other) ts1 else Ok (e, (Tok ty v, l) :: rest)
    | None => Ok (e, (Tok ty v, l) :: rest) end = Ok (e, (Tok ty v, l) :: rest)).
  { destruct (binary_prec v) as [p|] eqn:E; [|easy]. destruct (binary_lang lang v) eqn:L; [|easy]. cbn [op_stops] in St. rewrite (St _ E L). easy. }
  destruct (prefix_ex e) eqn:P; [|rewrite !andb_false_r; exact Bin].
  destruct (Ns eq_refl) as (Sf & Str). apply suffix_false in Sf as (-> & -> & -> & B & ->). unfold short_ahead. rewrite B, Str. exact Bin.
Qed.
Lemma stops_word s l rest prec : binary_prec (asc s) = None -> stops prec ((op_tok (asc s), l) :: rest).
Proof. intros E p E' _. congruence. Qed.
Lemma nosuf_word s l rest : suffix_sym (asc s) = false -> nosuf ((op_tok (asc s), l) :: rest).
Proof. intros E. split; [exact E|]. unfold op_tok. now destruct (is_keyword (asc s)). Qed.
Lemma follow_stops e rest : follow lang e rest -> stops None rest /\ (open_end e -> nosuf rest).
Proof.
  destruct rest as [|[[ty v|] l] rest]; try easy. intros (F1 & F2). split.
  - intros p E El. apply lang_spec in El. destruct (prec_nat _ _ E) as (k & -> & Lk). exfalso. now apply (F1 k).
  - intros O. specialize (F2 O) as (F2 & F3). split; [|now destruct ty]. unfold suffix_sym. destruct (existsb _ _) eqn:E; [|easy]. apply existsb_in in E. easy.
Qed.

(** ** Reading back *)
Definition reads (e : ex) : Prop :=
  (forall prec ts rest r, lay e ts rest -> allowed_ex prec e -> edge_ex e rest -> edge_end e rest -> runs (fun f => p_loop f prec e rest) r -> runs (fun f => p_ex f prec (ts ++ rest)) r) /\
  (core_ex e -> forall ts rest, lay e ts rest -> edge_ex e rest -> edge_end e rest -> runs (fun f => p_core f (ts ++ rest)) (e, rest)).

Lemma core_reads_ex e : not_bin e -> (forall ts rest, lay e ts rest -> edge_ex e rest -> edge_end e rest -> runs (fun f => p_core f (ts ++ rest)) (e, rest)) -> reads e.
Proof.
  intros Nb H. split; [|auto]. intros prec ts rest r La _ Ed Ed2 L. apply runs_step. eapply runs_ext; [intros m; apply eq_ex|].
  eapply runs_bind; [now apply H|]. exact L.
Qed.
Lemma suffix_reads_ex e e' (mid : rule) : ~ core_ex e' -> not_bin e' -> not_bin e /\ ~ is_un e -> lay e' = (lay e >> mid) -> reads e ->
  (forall prec ts rest r, mid ts rest -> runs (fun f => p_loop f prec e' rest) r -> runs (fun f => p_loop f prec e (ts ++ rest)) r) -> reads e'.
Proof.
  intros Nc Nb (Ne & Nu) P (R & _) H. split; [|easy]. intros prec ts rest r La _ _ _ L. rewrite P in La. destruct La as (a & b & -> & La & Lb). rewrite <- app_assoc.
  apply (R prec a (b ++ rest)); [easy|now destruct e|now destruct e|now destruct e|]. now apply H.
Qed.
Lemma callable_ex_not e : callable_ex e -> not_bin e /\ ~ is_un e /\ prefix_ex e = true.
Proof. now destruct e. Qed.
Lemma whole_reads_ex e ts rest : wf e -> reads e -> lay e ts rest -> stops None rest -> (open_end e -> nosuf rest) -> runs (fun f => p_ex f None (ts ++ rest)) (e, rest).
Proof.
  intros W (R & _) La St Ns. apply R; [easy|..].
  - destruct e; try exact I. cbn. destruct W as (_ & _ & _ & k & Lk & _). exists (Z.of_nat k). split; [now apply level_prec|easy].
  - destruct e; try exact I; cbn [edge_ex]; [now apply stops_none|]. destruct W as (_ & _ & _ & k & Lk & _). exists (Z.of_nat k). split; [now apply level_prec|now apply stops_none].
  - now destruct e.
  - apply loop_stop; [easy|]. intros P. apply Ns. now apply prefix_open.
Qed.
Lemma whole_word e ts s l rest : wf e -> reads e -> lay e ts ((op_tok (asc s), l) :: rest) -> binary_prec (asc s) = None -> suffix_sym (asc s) = false ->
  runs (fun f => p_ex f None (ts ++ (op_tok (asc s), l) :: rest)) (e, (op_tok (asc s), l) :: rest).
Proof. intros W R La B S. apply whole_reads_ex; [easy|easy|easy|now apply stops_word|]. intros _. now apply nosuf_word. Qed.

Definition reads_list (es : exs) : Prop :=
  (es <> XNil -> forall ts rest, lay_list es ts rest -> follow_list lang es rest -> runs (fun f => p_list f (ts ++ rest)) (es, rest)) /\
  match es with XCons e XNil => reads e | _ => True end.
Definition reads_its (i : its) : Prop := forall ts l rest, lay_its i ts ((op_tok (asc "}"), l) :: rest) -> runs (fun f => p_its f (ts ++ (op_tok (asc "}"), l) :: rest)) (i, rest).
Definition reads_fun (ps : list (option (list Z))) (b : blk) : Prop :=
  forall ts rest, (word "(" >> params ps >> word ")" >> lay_blk None b >> word "end") ts rest -> runs (fun f => p_fun f (ts ++ rest)) ((ps, b), rest).

(** the list ends before a word that is no operator *)
Definition ends_word (s : string) : Prop := binary_prec (asc s) = None /\ suffix_sym (asc s) = false /\ zeqb_list (asc s) (asc ",") = false.
Lemma follow_word s l rest e : binary_prec (asc s) = None -> suffix_sym (asc s) = false -> follow lang e ((op_tok (asc s), l) :: rest).
Proof.
  intros B S. unfold op_tok. split.
  - intros k Lk. apply level_prec in Lk. congruence.
  - intros _. split; [|now destruct (is_keyword (asc s))]. intros I. apply existsb_in in I. unfold suffix_sym in S. unfold suffixes in I. congruence.
Qed.
Lemma follow_list_word s l rest es : ends_word s -> follow_list lang es ((op_tok (asc s), l) :: rest).
Proof.
  intros (B & S & C). induction es as [|e es IH]; [exact I|]. cbn [follow_list]. destruct es as [|e' es].
  - split; [now apply follow_word|]. unfold op_tok. cbn [next_is map In]. intros [E|[]]. rewrite <- E, zeqb_list_refl in C. discriminate C.
  - exact IH.
Qed.
Lemma lay_list_begins es ts rest : es <> XNil -> wf_exs es -> lay_list es ts rest -> begins ts.
Proof.
  destruct es as [|e [|e' es]]; [easy| |]; intros _ (W & _) L.
  - now apply (lay_begins _ W _ _ L).
  - destruct L as (a & b & -> & L & _). apply begins_app. now apply (lay_begins _ W _ _ L).
Qed.
Lemma args_reads es ts rest : wf_exs es -> reads_list es -> (lay_list es >> word ")") ts rest -> runs (fun f => p_args f (ts ++ rest)) (es, rest).
Proof.
  intros W (R & _) (a & b & -> & La & (l & ->)). rewrite <- app_assoc. cbn [app]. apply runs_step. eapply runs_ext; [intros m; apply eq_args|]. destruct es as [|e es].
  - cbn [S_Stmt.lay_list] in La. red in La. subst a. cbn [app]. rewrite acc_word. apply runs_const.
  - assert (B : begins a) by (now apply (fun N => lay_list_begins (XCons e es) a _ N W La)).
    rewrite (acc_hd ")" noexpr); [|now apply (begins_app _ _ B)|in_list].
    eapply (runs_bind (fun m => p_list m _) (XCons e es, _)); [apply R; [easy|exact La|]; now apply follow_list_word|]. cbn beta iota. rewrite req_word. apply runs_const.
Qed.

(** the two ways to write the arguments *)
Lemma short_reads es ts rest : wf_exs es -> short_exs es -> reads_list es -> lay_list es ts rest -> exists e, es = XCons e XNil /\
  (exists t v l ts', ts ++ rest = (Tok t v, l) :: ts' /\ zeqb_list v (asc ".") = false /\ zeqb_list v (asc "[") = false /\ zeqb_list v (asc "(") = false /\ short_ahead ((Tok t v, l) :: ts') = true) /\
  runs (fun f => p_core f (ts ++ rest)) (e, rest).
Proof.
  intros W Sh (_ & R) La. destruct es as [|[[[] v|]| | | | | | | | | | |] [|? ?]]; try easy; eexists; (split; [reflexivity|]); (split; [|now apply R]).
  - destruct La as (l & ->). exists TString, v, l, rest. destruct W as (W & _). cbn [S_Stmt.wf constant] in W. unfold short_ahead. cbn [is_string]. rewrite orb_true_r.
    rewrite !(plain_not v) by (easy || (apply existsb_in; reflexivity)). easy.
  - destruct La as (a & b & -> & (l & ->) & _). eexists TPunct, (asc "{"), l, _. cbn [app]. split; [reflexivity|]. easy.
Qed.

(** one step of the loop *)
Lemma loop_mem prec e key ts rest r : prefix_ex e = true -> (word "." >> name key) ts rest -> runs (fun f => p_loop f prec (XMem e key) rest) r ->
  runs (fun f => p_loop f prec e (ts ++ rest)) r.
Proof.
  intros P (a & b & -> & (l & ->) & (l2 & ->)) H. cbn [app]. apply runs_step. eapply runs_ext; [intros m; rewrite eq_loop; unfold op_tok; rewrite P; cond; reflexivity|]. exact H.
Qed.
Lemma loop_idx prec e k ts rest r : prefix_ex e = true -> wf k -> reads k -> (word "[" >> lay k >> word "]") ts rest -> runs (fun f => p_loop f prec (XIdx e k) rest) r ->
  runs (fun f => p_loop f prec e (ts ++ rest)) r.
Proof.
  intros P W R (a & b & -> & (l & ->) & (a2 & b2 & -> & Lk & (l2 & ->))) H. cbn [app]. rewrite <- app_assoc. cbn [app]. apply runs_step.
  eapply runs_ext; [intros m; rewrite eq_loop; unfold op_tok at 1; rewrite P; cond; reflexivity|].
  eapply (runs_bind (fun m => p_ex m None _)); [apply (whole_word k _ "]"); easy|]. cbn beta iota. eapply runs_ext; [intros m; rewrite req_word; reflexivity|]. exact H.
Qed.
Lemma loop_call_ex prec e args ts rest r : prefix_ex e = true -> wf_exs args -> reads_list args -> (word "(" >> lay_list args >> word ")") ts rest ->
  runs (fun f => p_loop f prec (XCall e false args) rest) r -> runs (fun f => p_loop f prec e (ts ++ rest)) r.
Proof.
  intros P W R (a & b & -> & (l & ->) & La) H. cbn [app]. apply runs_step. eapply runs_ext; [intros m; rewrite eq_loop; unfold op_tok at 1; rewrite P; cond; reflexivity|].
  eapply (runs_bind (fun m => p_args m _)); [exact (args_reads args _ _ W R La)|]. exact H.
Qed.
Lemma loop_short_ex prec e args ts rest r : prefix_ex e = true -> wf_exs args -> short_exs args -> reads_list args -> lay_list args ts rest ->
  runs (fun f => p_loop f prec (XCall e true args) rest) r -> runs (fun f => p_loop f prec e (ts ++ rest)) r.
Proof.
  intros P W Sh R La H. destruct (short_reads args ts rest W Sh R La) as (a & -> & (t & v & l & ts' & E & N1 & N2 & N3 & Sa) & C). rewrite E in *.
  apply runs_step. eapply runs_ext; [intros m; rewrite eq_loop, P, N1, N2, N3, Sa; reflexivity|]. cbn [andb].
  eapply (runs_bind (fun m => p_core m _)); [exact C|]. exact H.
Qed.
Lemma loop_meth prec e key args ts rest r : prefix_ex e = true -> wf_exs args -> reads_list args -> (word ":" >> name key >> word "(" >> lay_list args >> word ")") ts rest ->
  runs (fun f => p_loop f prec (XMeth e key false args) rest) r -> runs (fun f => p_loop f prec e (ts ++ rest)) r.
Proof.
  intros P W R (a & b & -> & (l & ->) & (a2 & b2 & -> & (l2 & ->) & (a3 & b3 & -> & (l3 & ->) & La))) H. cbn [app].
  apply runs_step. eapply runs_ext; [intros m; rewrite eq_loop; unfold op_tok at 1; rewrite P; cond; reflexivity|].
  eapply runs_ext; [intros m; reflexivity|]. cbn [bind idt]. change (short_ahead ((op_tok (asc "("), l3) :: b3 ++ rest)) with false. cbn iota.
  eapply runs_ext; [intros m; rewrite req_word; reflexivity|]. cbn [bind].
  eapply (runs_bind (fun m => p_args m _)); [exact (args_reads args _ _ W R La)|]. exact H.
Qed.
Lemma loop_meth_short prec e key args ts rest r : prefix_ex e = true -> wf_exs args -> short_exs args -> reads_list args -> (word ":" >> name key >> lay_list args) ts rest ->
  runs (fun f => p_loop f prec (XMeth e key true args) rest) r -> runs (fun f => p_loop f prec e (ts ++ rest)) r.
Proof.
  intros P W Sh R (a & b & -> & (l & ->) & (a2 & b2 & -> & (l2 & ->) & La)) H. cbn [app].
  destruct (short_reads args b2 rest W Sh R La) as (x & -> & (t & v & l3 & ts' & E & N1 & N2 & N3 & Sa) & C). rewrite E in *.
  apply runs_step. eapply runs_ext; [intros m; rewrite eq_loop; unfold op_tok at 1; rewrite P; cond; reflexivity|].
  cbn [idt]. eapply runs_ext; [intros m; cbn [bind]; rewrite Sa; reflexivity|].
  eapply (runs_bind (fun m => p_core m _)); [exact C|]. exact H.
Qed.
Lemma loop_bin prec e op k other l ts rest r : level_of op k -> in_lang lang op -> compare_prec op (Z.of_nat k) prec = true ->
  runs (fun f => p_ex f (Some (Z.of_nat k)) (ts ++ rest)) (other, rest) -> runs (fun f => p_loop f prec (XBin op e other) rest) r ->
  runs (fun f => p_loop f prec e ((op_tok op, l) :: ts ++ rest)) r.
Proof.
  intros L Il C R H. pose proof (proj1 (level_prec _ _) L) as Ep. pose proof (op_not_suffix _ _ Ep) as Ns. apply suffix_false in Ns as (N1 & N2 & N3 & N4 & N5).
  apply lang_spec in Il. apply runs_step. unfold op_tok. eapply runs_ext.
  - intros m. rewrite eq_loop. unfold short_ahead. rewrite N1, N2, N3, N4, N5. cbn [andb orb].
    replace (is_string (Tok (if is_keyword op then TKeyword else TPunct) op)) with false by (now destruct (is_keyword op)). cbn [andb].
    rewrite Ep, Il, C. cbn [andb]. reflexivity.
  - eapply (runs_bind (fun m => p_ex m _ _)); [exact R|]. exact H.
Qed.

(** an operand behind an operator *)
Lemma operand_reads_ex e k ts rest : wf e -> reads e -> lay e ts rest -> allowed_ex (Some (Z.of_nat k)) e -> (forall n op l r, e = XBin op l r -> level_of op n -> (k <= n)%nat) ->
  (is_un e -> (k <= 12)%nat) -> stops (Some (Z.of_nat k)) rest -> (open_end e -> nosuf rest) ->
  runs (fun f => p_ex f (Some (Z.of_nat k)) (ts ++ rest)) (e, rest).
Proof.
  intros W (R & _) La A Lv Un St Ns. apply R; [easy|easy| |now destruct e|apply loop_stop; [easy|intros P; apply Ns; now apply prefix_open]].
  destruct e; try exact I; cbn [edge_ex].
  - specialize (Un I). destruct (Nat.eq_dec k 12) as [->|N12]; [now apply stops_pow|]. apply (stops_more k 11); [lia|easy].
  - destruct W as (_ & _ & _ & n & Ln & _). exists (Z.of_nat n). split; [now apply level_prec|]. apply (stops_more k); [|easy]. now apply (Lv n op e1 e2).
Qed.

(** an item of a table, without what follows it *)
Definition p_item m ts : res ((option (list Z) -> its -> its) * list ltok) :=
  match acc "[" ts with
  | Some ts =>
      '(k, ts) <- p_ex m None ts ;;
      ts <- req "]" ts ;; ts <- req "=" ts ;;
      '(v, ts) <- p_ex m None ts ;; Ok (IIdx k v, ts)
  | None =>
      match ts with
      | _ :: (Tok _ w, _) :: _ =>
          if zeqb_list w (asc "=") then
            '(key, ts) <- idt ts ;; ts <- req "=" ts ;;
            '(v, ts) <- p_ex m None ts ;; Ok (IMem key v, ts)
          else '(e, ts) <- p_ex m None ts ;; Ok (IItem e, ts)
      | _ => '(e, ts) <- p_ex m None ts ;; Ok (IItem e, ts)
      end
  end.
Lemma item_plain m ts : acc "[" ts = None -> second_not ts -> p_item m ts = '(e, ts) <- p_ex m None ts ;; Ok (IItem e, ts).
Proof.
  unfold p_item. intros -> So. destruct ts as [|t [|[[ty w|] l3] ts]]; try reflexivity. cbn [second_not map fst hd_not In] in So.
  replace (zeqb_list w (asc "=")) with false; [reflexivity|]. symmetry. apply zeqb_neq. intros ->. apply So. now left.
Qed.
Definition closes_its (rest : list ltok) : Prop := exists s l r, rest = (op_tok (asc s), l) :: r /\ In s ["}"; ","; ";"]%string.
Lemma closes_hd rest : closes_its rest -> hd_not ["="]%string (map fst rest).
Proof. intros (s & l2 & r & -> & I). apply word_hd. cbn [In] in I. repeat (destruct I as [<-|I]; [reflexivity|]). easy. Qed.
Lemma closes_whole_ex e ts rest : wf e -> reads e -> lay e ts rest -> closes_its rest -> runs (fun f => p_ex f None (ts ++ rest)) (e, rest).
Proof. intros G R La (s & l & r & -> & I). cbn [In] in I. apply whole_word; try easy; repeat (destruct I as [<-|I]; [reflexivity|]); easy. Qed.
Lemma its_tail (pre : list ltok) (mk : option (list Z) -> its -> its) sep i ts l rest :
  hd_not ["}"]%string (map fst pre) -> pre <> [] -> (forall rest', closes_its rest' -> rest' = ts ++ (op_tok (asc "}"), l) :: rest -> runs (fun m => p_item m (pre ++ rest')) (mk, rest')) ->
  sep_ok sep i -> (separated sep >> lay_its i) ts ((op_tok (asc "}"), l) :: rest) -> reads_its i ->
  runs (fun f => p_its f (pre ++ ts ++ (op_tok (asc "}"), l) :: rest)) (mk sep i, rest).
Proof.
  intros Hd Ne Hi Sp (a & b & -> & Ls & Li) R. apply runs_step. rewrite <- app_assoc in *. eapply runs_ext; [intros m; apply eq_its|].
  rewrite (acc_hd "}" ["}"]%string); [|now destruct pre|now left].
  assert (Cl : closes_its (a ++ b ++ (op_tok (asc "}"), l) :: rest)).
  { destruct sep as [v|]; cbn [sep_ok separated] in *.
    - destruct Ls as (l2 & ->). destruct Sp as [->| ->]; [exists ","%string, l2|exists ";"%string, l2]; (eexists; split; [reflexivity|]); cbn [In]; auto.
    - subst i. cbn [S_Stmt.lay_its] in Li. red in Ls, Li. subst a b. exists "}"%string, l, rest. cbn [In]. auto. }
  eapply (runs_bind (fun m => p_item m _) (mk, a ++ b ++ (op_tok (asc "}"), l) :: rest)); [now apply Hi|].
  cbn beta iota. destruct sep as [v|]; cbn [sep_ok separated] in *.
  - destruct Ls as (l2 & ->). cbn [app]. destruct Sp as [->| ->].
    + change (Tok TPunct (asc ",")) with (op_tok (asc ",")). rewrite !acc_other by reflexivity. rewrite req_word. cbn [bind].
      eapply (runs_bind (fun m => p_its m _)); [now apply R|]. apply runs_const.
    + change (Tok TPunct (asc ";")) with (op_tok (asc ";")). rewrite acc_other by reflexivity. rewrite acc_word. cbn [bind].
      eapply (runs_bind (fun m => p_its m _)); [now apply R|]. apply runs_const.
  - subst i. cbn [S_Stmt.lay_its] in Li. red in Ls, Li. subst a b. cbn [app]. rewrite acc_word. apply runs_const.
Qed.

(** ** Each kind of expression *)
Lemma read_const t : wf (XConst t) -> reads (XConst t).
Proof.
  intros G. apply core_reads_ex; [easy|]. intros ts rest (l & ->) _ _. apply runs_step. eapply runs_ext; [intros m; apply eq_core|]. cbn [app].
  cbn [S_Stmt.wf] in G. assert (C : const_tok t = true).
  { destruct t as [[] v|]; try easy; unfold const_tok; try apply orb_true_r. destruct G as [->|[->| ->]]; reflexivity. }
  destruct t as [ty v|]; [|easy]. rewrite C. apply runs_const.
Qed.
Lemma read_dots : reads XDots.
Proof.
  apply core_reads_ex; [easy|]. intros ts rest (l & ->) _ _. apply runs_step. eapply runs_ext; [intros m; apply eq_core|]. destruct lang; apply runs_const.
Qed.
Lemma read_var v : wf (XVar v) -> reads (XVar v).
Proof.
  intros G. apply core_reads_ex; [easy|]. intros ts rest (l & ->) _ _. apply runs_step. eapply runs_ext; [intros m; apply eq_core|]. cbn [S_Stmt.wf] in G.
  cbn [app const_tok map existsb]. rewrite !(plain_not v) by (easy || (apply existsb_in; reflexivity)). rewrite (plain_no_unary _ _ G). apply runs_const.
Qed.
Lemma read_xfun ps b : reads_fun ps b -> reads (XFun ps b).
Proof.
  intros R. apply core_reads_ex; [easy|]. intros ts rest (a & b' & -> & (l & ->) & L) _ _. cbn [app]. apply runs_step. eapply runs_ext; [intros m; apply eq_core|].
  specialize (R _ _ L). assert (H : runs (fun m => '(ps, b, ts) <- p_fun m (b' ++ rest) ;; Ok (XFun ps b, ts)) (XFun ps b, rest)).
  { eapply (runs_bind (fun m => p_fun m _)); [exact R|]. apply runs_const. }
  unfold op_tok. destruct lang; exact H.
Qed.
Lemma read_group e : wf e -> reads e -> reads (XGroup e).
Proof.
  intros G IH. apply core_reads_ex; [easy|]. intros ts rest (a & b & -> & (l & ->) & (a2 & b2 & -> & La & (l2 & ->))) _ _. apply runs_step. cbn [app]. rewrite <- app_assoc.
  eapply runs_ext; [intros m; rewrite eq_core; unfold op_tok at 1; reflexivity|]. cbn [const_tok map existsb].
  change (runs (fun m => '(e0, ts0) <- p_ex m None (a2 ++ [(op_tok (asc ")"), l2)] ++ rest);; ts1 <- req ")" ts0;; Ok (XGroup e0, ts1)) (XGroup e, rest)).
  eapply (runs_bind (fun m => p_ex m None _)); [apply (whole_word e _ ")"); easy|]. cbn beta iota. rewrite req_word. apply runs_const.
Qed.
Lemma read_un op e : wf (XUn op e) -> reads e -> reads (XUn op e).
Proof.
  intros (U & G & T) IH. apply core_reads_ex; [easy|]. intros ts rest (a & b & -> & (l & ->) & La) Ed Ed2. apply runs_step. cbn [app].
  destruct (unary_core _ _ U) as (U1 & U2 & U3 & U4).
  eapply runs_ext; [intros m; rewrite eq_core; unfold op_tok; cbn [const_tok]; rewrite U4, U1, U2, U3; reflexivity|].
  replace (match (if is_keyword op then TKeyword else TPunct) with TNumber | TString => true | _ => false end) with false by (now destruct (is_keyword op)). cbn [orb].
  eapply (runs_bind (fun m => p_ex m (Some k_unary_ops_prec) _) (e, rest)); [|apply runs_const]. apply (operand_reads_ex e 11); try easy.
  - destruct e; try exact I. destruct T as (n & Ln & Hn). exists (Z.of_nat n). split; [now apply level_prec|]. pose proof (level_range _ _ Ln) as Rg.
    assert (n = 12)%nat as -> by lia. assert (Ra : right_assoc op0) by (apply (right_level _ _ Ln); auto). apply right_spec in Ra. unfold compare_prec. now rewrite Ra.
  - intros n op0 l0 r -> Ln. destruct T as (n' & Ln' & Hn). now rewrite (level_unique _ _ _ Ln Ln').
  - lia.
Qed.
Lemma read_bin op l r : wf (XBin op l r) -> reads l -> reads r -> reads (XBin op l r).
Proof.
  intros (Il & Gl & Gr & k & Lk & A) IHl IHr. split; [|easy]. intros prec ts rest res (tl & tr0 & -> & Ll & (to & tr & -> & (ln & ->) & Lr)) (q & Eq & Cq) (q' & Eq' & St) Ns L.
  pose proof (proj1 (level_prec _ _) Lk) as Ek. rewrite Ek in Eq, Eq'. injection Eq as <-. injection Eq' as <-. cbn [edge_end] in Ns. pose proof (level_range _ _ Lk) as Rk.
  assert (Rr : runs (fun f => p_ex f (Some (Z.of_nat k)) (tr ++ rest)) (r, rest)).
  { apply operand_reads_ex; try easy.
    - destruct r as [| | | | | |op' l' r'| | | | |]; try exact I. destruct Gr as (_ & _ & _ & n & Ln & _). exists (Z.of_nat n). split; [now apply level_prec|]. unfold compare_prec.
      destruct A as [(_ & _ & [(n' & Ln' & Hn)|[]])|(Ra & _ & [(n' & Ln' & Hn)|[]])]; rewrite <- (level_unique _ _ _ Ln Ln') in Hn.
      + destruct (right_binary op'); lia.
      + destruct (right_binary op') eqn:Ro; [lia|]. assert (n <> k); [|lia]. intros ->. apply (right_level _ _ Lk) in Ra.
        apply (right_level _ _ Ln), right_spec in Ra. congruence.
    - intros n op' l' r' -> Ln. destruct A as [(_ & _ & [(n' & Ln' & Hn)|[]])|(Ra & _ & [(n' & Ln' & Hn)|[]])]; rewrite <- (level_unique _ _ _ Ln Ln') in Hn; lia. }
  rewrite <- app_assoc. cbn [app]. destruct IHl as (IHl & _). apply IHl; [exact Ll|..].
  - destruct l as [| | | | | |op' l' r'| | | | |]; try exact I. destruct Gl as (_ & _ & _ & n & Ln & _). exists (Z.of_nat n). split; [now apply level_prec|].
    destruct prec as [p|]; [|easy]. unfold compare_prec in *.
    destruct A as [(Na & (n' & Ln' & Hn) & _)|(Ra & (n' & Ln' & Hn) & _)]; rewrite <- (level_unique _ _ _ Ln Ln') in Hn.
    + destruct (right_binary op) eqn:Ro; [apply right_spec in Ro; easy|]. destruct (right_binary op'); lia.
    + apply right_spec in Ra. rewrite Ra in Cq. destruct (right_binary op'); lia.
  - assert (Sl : forall n, (if right_binary op then (k + 1 <= n)%nat else (k <= n)%nat) -> stops (Some (Z.of_nat n)) ((op_tok op, ln) :: tr ++ rest)).
    { intros n Hn p Ep _. rewrite Ek in Ep. injection Ep as <-. unfold compare_prec. destruct (right_binary op); lia. }
    destruct l as [| | | | |op' l'|op' l' r'| | | | |]; try exact I.
    + apply (Sl 11%nat). destruct A as [(Na & T & _)|(Ra & T & _)]; cbn [tight_ex] in T.
      * destruct (right_binary op) eqn:Ro; [apply right_spec in Ro; easy|lia].
      * apply right_spec in Ra. rewrite Ra. lia.
    + destruct Gl as (_ & _ & _ & n & Ln & _). exists (Z.of_nat n). split; [now apply level_prec|]. apply Sl.
      destruct A as [(Na & (n' & Ln' & Hn) & _)|(Ra & (n' & Ln' & Hn) & _)]; rewrite <- (level_unique _ _ _ Ln Ln') in Hn.
      * destruct (right_binary op) eqn:Ro; [apply right_spec in Ro; easy|lia].
      * apply right_spec in Ra. rewrite Ra. lia.
  - assert (nosuf ((op_tok op, ln) :: tr ++ rest)).
    { split; [now apply (op_not_suffix _ _ Ek)|now destruct (is_keyword op)]. } now destruct l.
  - now apply (loop_bin _ _ _ k r).
Qed.
Lemma read_mem e key : wf (XMem e key) -> reads e -> reads (XMem e key).
Proof.
  intros (Ca & G & Pk) IH. destruct (callable_ex_not _ Ca) as (C1 & C2 & C3). apply (suffix_reads_ex e _ (word "." >> name key)); auto; try easy.
  intros. now apply (loop_mem _ _ key).
Qed.
Lemma read_idx e k : wf (XIdx e k) -> reads e -> reads k -> reads (XIdx e k).
Proof.
  intros (Ca & G & Gk) IH IHk. destruct (callable_ex_not _ Ca) as (C1 & C2 & C3). apply (suffix_reads_ex e _ (word "[" >> lay k >> word "]")); auto; try easy.
  intros. now apply (loop_idx _ _ k).
Qed.
Lemma read_call f short args : wf (XCall f short args) -> reads f -> reads_list args -> reads (XCall f short args).
Proof.
  intros (Ca & G & Ga & Sh) IH IHa. destruct (callable_ex_not _ Ca) as (C1 & C2 & C3).
  apply (suffix_reads_ex f _ (if short then lay_list args else word "(" >> lay_list args >> word ")")); auto; try easy.
  intros. destruct short; [apply (loop_short_ex _ _ args); auto|]. now apply (loop_call_ex _ _ args).
Qed.
Lemma read_meth e key short args : wf (XMeth e key short args) -> reads e -> reads_list args -> reads (XMeth e key short args).
Proof.
  intros (Ca & G & Pk & Ga & Sh) IH IHa. destruct (callable_ex_not _ Ca) as (C1 & C2 & C3).
  apply (suffix_reads_ex e _ (word ":" >> name key >> (if short then lay_list args else word "(" >> lay_list args >> word ")"))); auto; try easy.
  intros. destruct short; [apply (loop_meth_short _ _ key args); auto|]. now apply (loop_meth _ _ key args).
Qed.
Lemma read_tab i : reads_its i -> reads (XTab i).
Proof.
  intros IH. apply core_reads_ex; [easy|]. intros ts rest (a & b & -> & (l & ->) & (a2 & b2 & -> & La & (l2 & ->))) _ _. apply runs_step. cbn [app]. rewrite <- app_assoc.
  eapply runs_ext; [intros m; rewrite eq_core; unfold op_tok at 1; reflexivity|]. cbn [const_tok map existsb].
  change (runs (fun m => '(i0, ts0) <- p_its m (a2 ++ [(op_tok (asc "}"), l2)] ++ rest);; Ok (XTab i0, ts0)) (XTab i, rest)).
  eapply (runs_bind (fun m => p_its m _)); [now apply IH|]. apply runs_const.
Qed.
Lemma read_nil : reads_list XNil.
Proof. split; easy. Qed.
Lemma read_cons e es : wf e -> reads e -> reads_list es -> reads_list (XCons e es).
Proof.
  intros G IH (IHa & _). split; [|now destruct es]. intros _ ts rest La Fo. apply runs_step. eapply runs_ext; [intros m; apply eq_list|]. destruct es as [|e2 es].
  - cbn [S_Stmt.lay_list follow_list] in *. destruct Fo as (Fo & Nc). apply follow_stops in Fo as (F1 & F2).
    eapply (runs_bind (fun m => p_ex m None _)); [exact (whole_reads_ex e _ _ G IH La F1 F2)|]. cbn beta iota.
    replace (acc "," rest) with (@None (list ltok)); [apply runs_const|]. symmetry. destruct rest as [|[[ty v|] l] rest]; try easy. cbn [acc].
    destruct (zeqb_list v (asc ",")) eqn:E; [|easy]. apply zeqb_sound in E. subst. destruct Nc. now left.
  - destruct La as (a & b & -> & La & (a2 & b2 & -> & (l & ->) & Lb)). rewrite <- app_assoc. cbn [app].
    eapply (runs_bind (fun m => p_ex m None _)); [apply (whole_word e _ ","); easy|]. cbn beta iota. rewrite acc_word.
    eapply (runs_bind (fun m => p_list m _)); [now apply IHa|]. apply runs_const.
Qed.
Lemma read_inil : reads_its INil.
Proof. intros ts l rest ->. apply runs_step. eapply runs_ext; [intros m; apply eq_its|]. cbn [app]. rewrite acc_word. apply runs_const. Qed.
Lemma read_iidx k v sep i : wf_its (IIdx k v sep i) -> reads k -> reads v -> reads_its i -> reads_its (IIdx k v sep i).
Proof.
  intros (Gk & Gv & Sp & Gi) IHk IHv IH ts l rest (t1 & b1 & -> & (l1 & ->) & (tk & b2 & -> & Lk & (t3 & b3 & -> & (l3 & ->) & (t4 & b4 & -> & (l4 & ->) & (tv & b5 & -> & Lv & Li))))).
  change (([(op_tok (asc "["), l1)] ++ tk ++ [(op_tok (asc "]"), l3)] ++ [(op_tok (asc "="), l4)] ++ tv ++ b5) ++ (op_tok (asc "}"), l) :: rest)
    with ((op_tok (asc "["), l1) :: ((tk ++ (op_tok (asc "]"), l3) :: (op_tok (asc "="), l4) :: tv ++ b5) ++ (op_tok (asc "}"), l) :: rest)).
  replace ((op_tok (asc "["), l1) :: ((tk ++ (op_tok (asc "]"), l3) :: (op_tok (asc "="), l4) :: tv ++ b5) ++ (op_tok (asc "}"), l) :: rest))
    with (((op_tok (asc "["), l1) :: tk ++ (op_tok (asc "]"), l3) :: (op_tok (asc "="), l4) :: tv) ++ b5 ++ (op_tok (asc "}"), l) :: rest).
  2:{ cbn [app]. rewrite <- !app_assoc. cbn [app]. rewrite <- !app_assoc. reflexivity. }
  apply (its_tail _ (IIdx k v)); try easy; [now apply not_in|].
  intros rest' Cl ->. unfold p_item. cbn [app]. rewrite acc_word, <- app_assoc. cbn [app]. cbn [app] in Lk. rewrite <- app_assoc in Lk. cbn [app] in Lk.
  eapply (runs_bind (fun m => p_ex m None _)).
  { apply (whole_word k _ "]"); try easy. }
  cbn beta iota. rewrite !req_word. cbn [bind]. rewrite req_word. cbn [bind].
  eapply (runs_bind (fun m => p_ex m None _)); [apply (closes_whole_ex v); easy|]. apply runs_const.
Qed.
Lemma read_imem key v sep i : wf_its (IMem key v sep i) -> reads v -> reads_its i -> reads_its (IMem key v sep i).
Proof.
  intros (Pk & Gv & Sp & Gi) IHv IH ts l rest (t1 & b1 & -> & (l1 & ->) & (t4 & b4 & -> & (l4 & ->) & (tv & b5 & -> & Lv & Li))).
  match goal with |- runs (fun f => p_its f ?x) _ => replace x
    with (((Tok TIdent key, l1) :: (op_tok (asc "="), l4) :: tv) ++ b5 ++ (op_tok (asc "}"), l) :: rest) by (cbn [app]; rewrite <- !app_assoc; reflexivity) end.
  apply (its_tail _ (IMem key v)); try easy.
  - apply plain_hd; [easy|]. apply existsb_in. reflexivity.
  - intros rest' Cl ->. unfold p_item. cbn [app acc idt bind]. rewrite (plain_not key) by (easy || (apply existsb_in; reflexivity)). unfold op_tok at 1. rewrite zeqb_list_refl.
    rewrite req_word. cbn [bind]. eapply (runs_bind (fun m => p_ex m None _)); [apply (closes_whole_ex v); easy|]. apply runs_const.
Qed.
Lemma read_iitem e sep i : wf_its (IItem e sep i) -> reads e -> reads_its i -> reads_its (IItem e sep i).
Proof.
  intros (G & Sp & Gi) IHe IH ts l rest (tv & b5 & -> & Lv & Li). rewrite <- app_assoc. pose proof (lay_begins _ G _ _ Lv) as B.
  apply (its_tail _ (IItem e)); try easy.
  - apply begins_hd; [easy|in_list].
  - apply B.
  - intros rest' Cl ->. eapply runs_ext.
    { intros m. apply item_plain; [apply (acc_hd "[" noexpr); [now apply (begins_app _ _ B)|in_list]|]. apply (lay_second _ G _ _ Lv). exact (closes_hd _ Cl). }
    eapply (runs_bind (fun m => p_ex m None _)); [apply (closes_whole_ex e); easy|]. apply runs_const.
Qed.
End Read.
