(** The tokens of an expression of the grammar are read back as that expression. *)
From Coq Require Import String List ZArith Lia Bool.
From Verif Require Import M_Base L_Util M_Fold M_Token M_Expr S_Expr L_Expr L_ExprSound.
Import ListNotations.
Open Scope Z_scope.

Section Print.
Context (lang : language) (rf : list tok -> res (list tok * list tok)).
Context (Rs : forall ts body rest, rf ts = Ok (body, rest) -> exists body', body = pt "(" :: body').
Notation p_expr := (p_expr lang rf).
Notation p_core := (p_core lang rf).
Notation p_loop := (p_loop lang rf).
Notation p_args := (p_args lang rf).
Notation p_more_args := (p_more_args lang rf).
Notation p_items := (p_items lang rf).
Notation grammar := (grammar lang rf).
Notation grammar_args := (grammar_args lang rf).
Notation grammar_items := (grammar_items lang rf).
Notation op_stops := (op_stops lang).
Notation edge := (edge lang).

Ltac sym := first [reflexivity | (apply existsb_in; reflexivity)].

(** ** Running with enough fuel *)
Definition runs {A} (p : nat -> res A) (r : A) : Prop := exists n, forall m, (n <= m)%nat -> p m = Ok r.
Lemma runs_step {A} (p : nat -> res A) r : runs (fun m => p (S m)) r -> runs p r.
Proof. intros (n & H). exists (S n). intros [|m] L; [lia|]. apply H. lia. Qed.
Lemma runs_const {A} (r : A) : runs (fun _ => Ok r) r.
Proof. now exists O. Qed.
Lemma runs_ext {A} (p q : nat -> res A) r : (forall m, p m = q m) -> runs q r -> runs p r.
Proof. intros E (n & H). exists n. intros m L. rewrite E. now apply H. Qed.
Lemma runs_bind {A B} (p : nat -> res A) a (k : nat -> A -> res B) r : runs p a -> runs (fun m => k m a) r -> runs (fun m => bind (p m) (k m)) r.
Proof. intros (n & H) (n' & H'). exists (max n n'). intros m L. rewrite (H m) by lia. cbn. apply H'. lia. Qed.

(** ** What can follow *)
Definition nosuffix (rest : list tok) : Prop :=
  match rest with Tok ty v :: _ => suffix_sym v = false /\ is_string (Tok ty v) = false | _ => True end.
Definition edge2 (e : expr) (rest : list tok) : Prop := match e with Binary _ _ _ | Unary _ _ => nosuffix rest | _ => True end.
Definition core (e : expr) : Prop :=
  match e with Const _ | Varargs | Var _ | Fun _ | Group _ | Unary _ _ | Table _ => True | _ => False end.

Lemma suffix_false v : suffix_sym v = false -> zeqb_list v (asc ".") = false /\ zeqb_list v (asc "[") = false /\ zeqb_list v (asc "(") = false /\
  zeqb_list v (asc "{") = false /\ zeqb_list v (asc ":") = false.
Proof. unfold suffix_sym. cbn [map existsb]. rewrite !orb_false_iff. tauto. Qed.
Lemma loop_end prec e rest : op_stops prec rest -> (prefix_type e = true -> nosuffix rest) -> runs (fun f => p_loop f prec e rest) (e, rest).
Proof.
  intros St Ns. apply runs_step. exists O. intros m _. rewrite eq_loop. destruct rest as [|[ty v|] rest]; try easy.
  assert (Bin : match binary_prec v with
    | Some p => if binary_lang lang v && compare_prec v p prec then '(other, ts1) <- p_expr m (Some p) rest;; p_loop m prec (Binary v e other) ts1 else Ok (e, Tok ty v :: rest)
    | None => Ok (e, Tok ty v :: rest) end = Ok (e, Tok ty v :: rest)).
  { destruct (binary_prec v) as [p|] eqn:E; [|easy]. destruct (binary_lang lang v) eqn:L; [|easy]. cbn [op_stops L_ExprSound.op_stops] in St. rewrite (St _ E L). easy. }
  destruct (prefix_type e) eqn:P; [|rewrite !andb_false_r; exact Bin].
  destruct (Ns eq_refl) as (Sf & Str). apply suffix_false in Sf as (-> & -> & -> & B & ->). unfold short_arg. rewrite B, Str. exact Bin.
Qed.
Lemma stops_mono k n rest : (k <= n)%nat -> op_stops (Some (Z.of_nat k)) rest -> op_stops (Some (Z.of_nat n)) rest.
Proof.
  intros L. destruct rest as [|[ty v|] rest]; try easy. cbn [L_ExprSound.op_stops]. intros H p E El. specialize (H p E El).
  unfold compare_prec in *. destruct (right_binary v); lia.
Qed.
Lemma stops_12 rest : op_stops (Some 12) rest -> op_stops (Some 11) rest.
Proof.
  destruct rest as [|[ty v|] rest]; try easy. cbn [L_ExprSound.op_stops]. intros H p E El. specialize (H p E El).
  destruct (prec_nat _ _ E) as (k & -> & Lk). pose proof (level_range _ _ Lk) as R. unfold compare_prec in *. destruct (right_binary v) eqn:Rv; [lia|].
  assert (k <> 12%nat); [|lia]. intros ->. apply (right_level _ _ Lk) in Rv || (assert (right_assoc v) by (apply (right_level _ _ Lk); auto)). apply right_spec in H0. congruence.
Qed.
Lemma stops_none prec rest : op_stops None rest -> op_stops prec rest.
Proof. destruct rest as [|[ty v|] rest]; try easy. intros H p E El. specialize (H p E El). discriminate H. Qed.
Lemma stops_closed s rest prec : binary_prec (asc s) = None -> op_stops prec (pt s :: rest).
Proof. intros E p E' _. congruence. Qed.
Lemma op_head v : op_tok v = Tok (if is_keyword v then TKeyword else TPunct) v.
Proof. reflexivity. Qed.

(** ** How an expression begins *)
Definition hd_not (l : list string) (ts : list tok) : Prop :=
  match ts with Tok _ v :: _ => ~ In v (map asc l) | TErr :: _ => False | [] => True end.
Definition starts (ts : list tok) : Prop := ts <> [] /\ hd_not [")"; "}"; "["; "="]%string ts.
Lemma hd_accept s l ts : hd_not l ts -> In s l -> accept_value (asc s) ts = None.
Proof. destruct ts as [|[ty v|] ts]; try easy. cbn. intros N I. destruct (zeqb_list v (asc s)) eqn:E; [|easy]. apply zeqb_sound in E. subst. destruct N. now apply in_map. Qed.
Lemma starts_app a b : starts a -> starts (a ++ b).
Proof. intros (N & H). destruct a as [|t a]; [easy|]. split; [easy|exact H]. Qed.
Lemma not_in v l : existsb (zeqb_list v) (map asc l) = false -> ~ In v (map asc l).
Proof. intros E I. apply existsb_in in I. congruence. Qed.
Lemma plain_not_in v l : plain_word v -> (forall s, In s l -> In (asc s) symbols) -> ~ In v (map asc l).
Proof. intros (N & _) H I. apply in_map_iff in I as (s & <- & I). now apply N, H. Qed.
Lemma eq_closes : forall s, In s [")"; "}"; "["; "="]%string -> In (asc s) symbols.
Proof. cbn [In]. intros s H. repeat (destruct H as [<-|H]; [sym|]). easy. Qed.

Lemma print_starts e : grammar e -> starts (print e).
Proof.
  induction e; cbn [print]; intros G; try (now apply not_in); cbn [S_Expr.grammar] in G.
  - split; [easy|]. destruct t as [[] v|]; try easy; cbn [constant] in G; try (apply plain_not_in; [exact G|apply eq_closes]).
    destruct G as [->|[->| ->]]; now apply not_in.
  - split; [easy|]. now apply not_in.
  - split; [easy|]. apply plain_not_in; [exact G|apply eq_closes].
  - split; [easy|]. now apply not_in.
  - split; [easy|]. now apply not_in.
  - split; [easy|]. destruct G as (U & _). rewrite op_head. cbn [hd_not]. apply not_in.
    destruct U as [I|(-> & _)]; [|reflexivity]; cbn [map In] in I; repeat (destruct I as [<-|I]; [reflexivity|]); easy.
  - apply starts_app. tauto.
  - apply starts_app. tauto.
  - apply starts_app. tauto.
  - apply starts_app. tauto.
  - apply starts_app. tauto.
  - split; [easy|]. now apply not_in.
Qed.
Definition second_ok (ts : list tok) : Prop := match ts with _ :: ts => hd_not ["="]%string ts | [] => True end.
Lemma hd_weaken ts : hd_not [")"; "}"; "["; "="]%string ts -> hd_not ["="]%string ts.
Proof. destruct ts as [|[ty v|] ts]; try easy. cbn. tauto. Qed.
Lemma sym_hd s ts : zeqb_list (asc s) (asc "=") = false -> hd_not ["="]%string (pt s :: ts).
Proof. intros E. apply not_in. cbn [map existsb]. now rewrite E. Qed.
Lemma items_hd its rest : grammar_items its -> hd_not ["="]%string (print_items its ++ pt "}" :: rest).
Proof.
  destruct its; cbn [S_Expr.grammar_items print_items].
  - intros _. now apply sym_hd.
  - intros _. now apply sym_hd.
  - intros (P & _). cbn [app hd_not]. apply plain_not_in; [easy|]. intros s [<-|[]]. sym.
  - intros (G & _). apply print_starts in G as (N & H). destruct (print e) as [|t ts]; [easy|]. now apply hd_weaken in H.
Qed.
Lemma print_second e : grammar e -> forall rest, hd_not ["="]%string rest -> second_ok (print e ++ rest).
Proof.
  induction e; cbn [print S_Expr.grammar]; intros G rest H; try exact H.
  - specialize (G rest). destruct (Rs _ _ _ G) as (b & ->). now apply sym_hd.
  - cbn [app second_ok]. rewrite <- app_assoc. apply print_starts in G as (N & K). destruct (print e) as [|t ts]; [easy|]. now apply hd_weaken in K.
  - cbn [app second_ok]. destruct G as (_ & G & _). apply print_starts in G as (N & K). destruct (print e) as [|t ts]; [easy|]. now apply hd_weaken in K.
  - rewrite <- app_assoc. destruct G as (_ & Gl & _ & k & Lk & _). apply IHe1; [easy|]. cbn [app]. rewrite op_head. cbn [hd_not]. apply not_in.
    cbn [map existsb]. destruct (zeqb_list op (asc "=")) eqn:E; [|easy]. apply zeqb_sound in E. subst. apply level_prec in Lk. vm_compute in Lk. discriminate Lk.
  - rewrite <- app_assoc. apply IHe; [easy|]. now apply sym_hd.
  - rewrite <- app_assoc. apply IHe1; [easy|]. now apply sym_hd.
  - rewrite <- app_assoc. destruct G as (_ & Gf & Ga & Sh). apply IHe; [easy|]. destruct short; [|now apply sym_hd].
    specialize (Sh eq_refl). destruct args as [|[[[] v|]| | | | | | | | | | |] [|? ?]]; try easy; try (now apply sym_hd).
    cbn [print_args print app hd_not]. cbn [S_Expr.grammar_args S_Expr.grammar constant] in Ga. apply plain_not_in; [easy|]. intros s [<-|[]]. sym.
  - rewrite <- app_assoc. apply IHe; [easy|]. now apply sym_hd.
  - cbn [app second_ok]. rewrite <- app_assoc. now apply items_hd.
Qed.

(** ** Reading back *)
Definition reads (e : expr) : Prop :=
  (forall prec rest r, allowed prec e -> edge e rest -> edge2 e rest -> runs (fun f => p_loop f prec e rest) r -> runs (fun f => p_expr f prec (print e ++ rest)) r) /\
  (core e -> forall rest, edge e rest -> edge2 e rest -> runs (fun f => p_core f (print e ++ rest)) (e, rest)).

Lemma core_reads e : not_binary e -> (forall rest, edge e rest -> edge2 e rest -> runs (fun f => p_core f (print e ++ rest)) (e, rest)) -> reads e.
Proof.
  intros Nb H. split; [|auto]. intros prec rest r _ Ed Ed2 L. apply runs_step. eapply runs_ext; [intros m; apply eq_expr|].
  eapply runs_bind; [now apply H|]. exact L.
Qed.
(** A suffix is read by the loop. *)
Lemma suffix_reads e e' mid : ~ core e' -> not_binary e' -> not_binary e /\ ~ is_unary e -> print e' = print e ++ mid -> reads e ->
  (forall prec rest r, runs (fun f => p_loop f prec e' rest) r -> runs (fun f => p_loop f prec e (mid ++ rest)) r) -> reads e'.
Proof.
  intros Nc Nb (Ne & Nu) P (R & _) H. split; [|easy]. intros prec rest r _ _ _ L. rewrite P, <- app_assoc. apply R; [now destruct e|now destruct e|now destruct e|]. now apply H.
Qed.
Lemma callable_not e : callable e -> not_binary e /\ ~ is_unary e /\ prefix_type e = true.
Proof. now destruct e. Qed.
Lemma whole_reads e rest : grammar e -> reads e -> op_stops None rest -> nosuffix rest -> runs (fun f => p_expr f None (print e ++ rest)) (e, rest).
Proof.
  intros G (R & _) St Ns. apply R.
  - destruct e; try exact I. cbn. destruct G as (_ & _ & _ & k & Lk & _). exists (Z.of_nat k). split; [now apply level_prec|easy].
  - destruct e; try exact I; cbn [L_ExprSound.edge]; [now apply stops_none|]. destruct G as (_ & _ & _ & k & Lk & _). exists (Z.of_nat k). split; [now apply level_prec|now apply stops_none].
  - now destruct e.
  - now apply loop_end.
Qed.
Lemma whole_sym e s rest : grammar e -> reads e -> binary_prec (asc s) = None -> suffix_sym (asc s) = false -> runs (fun f => p_expr f None (print e ++ pt s :: rest)) (e, pt s :: rest).
Proof. intros G R B S. apply whole_reads; [easy|easy|now apply stops_closed|]. split; [easy|reflexivity]. Qed.
Lemma req_sym s rest : require_value (asc s) (pt s :: rest) = Ok rest.
Proof. unfold require_value, accept_value, pt. rewrite zeqb_list_refl. reflexivity. Qed.
Lemma acc_sym s rest : accept_value (asc s) (pt s :: rest) = Some rest.
Proof. unfold accept_value, pt. rewrite zeqb_list_refl. reflexivity. Qed.
Lemma acc_other s s' rest : zeqb_list (asc s') (asc s) = false -> accept_value (asc s) (pt s' :: rest) = None.
Proof. unfold accept_value, pt. now intros ->. Qed.

Definition reads_args (args : exprs) : Prop :=
  (forall rest, runs (fun f => p_args f (print_args args ++ pt ")" :: rest)) (args, rest)) /\
  (args <> ANil -> forall rest, runs (fun f => p_more_args f (print_args args ++ pt ")" :: rest)) (args, rest)) /\
  match args with ACons e ANil => reads e | _ => True end.
Definition reads_items (its : items) : Prop := forall rest, runs (fun f => p_items f (print_items its ++ pt "}" :: rest)) (its, rest).

(** the two ways to write the arguments *)
Lemma short_loop args rest : grammar_args args -> short_args args -> reads_args args -> exists e, args = ACons e ANil /\
  (exists t v ts, print e ++ rest = Tok t v :: ts /\ zeqb_list v (asc ".") = false /\ zeqb_list v (asc "[") = false /\ zeqb_list v (asc "(") = false /\ short_arg (Tok t v :: ts) = true) /\
  runs (fun f => p_core f (print e ++ rest)) (e, rest).
Proof.
  intros G Sh (_ & _ & R). destruct args as [|[[[] v|]| | | | | | | | | | |] [|? ?]]; try easy; eexists; (split; [reflexivity|]); (split; [|now apply R]).
  - exists TString, v, rest. destruct G as (G & _). cbn [S_Expr.grammar constant] in G. unfold short_arg. cbn [is_string]. rewrite orb_true_r.
    rewrite !(plain_not v) by (easy || sym). easy.
  - exists TPunct, (asc "{"), ((print_items its ++ [pt "}"]) ++ rest). easy.
Qed.

(** one step of the loop *)
Lemma loop_member prec e key rest r : prefix_type e = true -> runs (fun f => p_loop f prec (Member e key) rest) r ->
  runs (fun f => p_loop f prec e (pt "." :: Tok TIdent key :: rest)) r.
Proof. intros P H. apply runs_step. eapply runs_ext; [intros m; rewrite eq_loop; unfold pt; rewrite P; reflexivity|]. exact H. Qed.
Lemma loop_index prec e k rest r : prefix_type e = true -> grammar k -> reads k -> runs (fun f => p_loop f prec (Index e k) rest) r ->
  runs (fun f => p_loop f prec e (pt "[" :: print k ++ pt "]" :: rest)) r.
Proof.
  intros P G R H. apply runs_step. eapply runs_ext; [intros m; rewrite eq_loop; unfold pt at 1; rewrite P; reflexivity|].
  eapply (runs_bind (fun m => p_expr m None _)); [apply (whole_sym k "]"); easy|]. cbn beta iota. eapply runs_ext; [intros m; rewrite req_sym; reflexivity|]. exact H.
Qed.
Lemma loop_call prec e args rest r : prefix_type e = true -> reads_args args -> runs (fun f => p_loop f prec (Call e false args) rest) r ->
  runs (fun f => p_loop f prec e (pt "(" :: print_args args ++ pt ")" :: rest)) r.
Proof.
  intros P (R & _) H. apply runs_step. eapply runs_ext; [intros m; rewrite eq_loop; unfold pt at 1; rewrite P; reflexivity|].
  eapply (runs_bind (fun m => p_args m _)); [apply R|]. exact H.
Qed.
Lemma loop_short prec e args rest r : prefix_type e = true -> grammar_args args -> short_args args -> reads_args args ->
  runs (fun f => p_loop f prec (Call e true args) rest) r -> runs (fun f => p_loop f prec e (print_args args ++ rest)) r.
Proof.
  intros P G Sh R H. destruct (short_loop args rest G Sh R) as (a & -> & (t & v & ts & E & N1 & N2 & N3 & Sa) & C). cbn [print_args]. rewrite E in *.
  apply runs_step. eapply runs_ext; [intros m; rewrite eq_loop, P, N1, N2, N3, Sa; reflexivity|]. cbn [andb].
  eapply (runs_bind (fun m => p_core m _)); [exact C|]. exact H.
Qed.
Lemma loop_method prec e key args rest r : prefix_type e = true -> reads_args args -> runs (fun f => p_loop f prec (Method e key false args) rest) r ->
  runs (fun f => p_loop f prec e (pt ":" :: Tok TIdent key :: pt "(" :: print_args args ++ pt ")" :: rest)) r.
Proof.
  intros P (R & _) H. apply runs_step. eapply runs_ext; [intros m; rewrite eq_loop; unfold pt at 1; rewrite P; reflexivity|].
  eapply runs_ext; [intros m; reflexivity|]. cbn [bind require_ident]. change (short_arg (pt "(" :: print_args args ++ pt ")" :: rest)) with false. cbn iota.
  eapply runs_ext; [intros m; rewrite req_sym; reflexivity|]. cbn [bind].
  eapply (runs_bind (fun m => p_args m _)); [apply R|]. exact H.
Qed.
Lemma loop_method_short prec e key args rest r : prefix_type e = true -> grammar_args args -> short_args args -> reads_args args ->
  runs (fun f => p_loop f prec (Method e key true args) rest) r -> runs (fun f => p_loop f prec e (pt ":" :: Tok TIdent key :: print_args args ++ rest)) r.
Proof.
  intros P G Sh R H. destruct (short_loop args rest G Sh R) as (a & -> & (t & v & ts & E & N1 & N2 & N3 & Sa) & C). cbn [print_args]. rewrite E in *.
  apply runs_step. eapply runs_ext; [intros m; rewrite eq_loop; unfold pt at 1; rewrite P; reflexivity|].
  cbn [require_ident]. eapply runs_ext; [intros m; cbn [bind]; rewrite Sa; reflexivity|].
  eapply (runs_bind (fun m => p_core m _)); [exact C|]. exact H.
Qed.
Lemma loop_binary prec e op k other rest r : level_of op k -> in_lang lang op -> compare_prec op (Z.of_nat k) prec = true ->
  runs (fun f => p_expr f (Some (Z.of_nat k)) (print other ++ rest)) (other, rest) -> runs (fun f => p_loop f prec (Binary op e other) rest) r ->
  runs (fun f => p_loop f prec e (op_tok op :: print other ++ rest)) r.
Proof.
  intros L Il C R H. pose proof (proj1 (level_prec _ _) L) as Ep. pose proof (op_not_suffix _ _ Ep) as Ns. apply suffix_false in Ns as (N1 & N2 & N3 & N4 & N5).
  apply lang_spec in Il. apply runs_step. unfold op_tok. eapply runs_ext.
  - intros m. rewrite eq_loop. unfold short_arg. rewrite N1, N2, N3, N4, N5. cbn [andb orb].
    replace (is_string (Tok (if is_keyword op then TKeyword else TPunct) op)) with false by (now destruct (is_keyword op)). cbn [andb].
    rewrite Ep, Il, C. cbn [andb]. reflexivity.
  - eapply (runs_bind (fun m => p_expr m _ _)); [exact R|]. exact H.
Qed.

(** an operand behind an operator *)
Lemma operand_reads e k rest : grammar e -> reads e -> allowed (Some (Z.of_nat k)) e -> (forall n op l r, e = Binary op l r -> level_of op n -> (k <= n)%nat) ->
  (is_unary e -> (k <= 12)%nat) -> op_stops (Some (Z.of_nat k)) rest -> nosuffix rest ->
  runs (fun f => p_expr f (Some (Z.of_nat k)) (print e ++ rest)) (e, rest).
Proof.
  intros G (R & _) A Lv Un St Ns. apply R; [easy| |now destruct e|now apply loop_end].
  destruct e; try exact I; cbn [L_ExprSound.edge].
  - specialize (Un I). destruct (Nat.eq_dec k 12) as [->|N12]; [now apply stops_12|]. apply (stops_mono k 11); [lia|easy].
  - destruct G as (_ & _ & _ & n & Ln & _). exists (Z.of_nat n). split; [now apply level_prec|]. apply (stops_mono k); [|easy]. now apply (Lv n op e1 e2).
Qed.

(** an item of a table, without what follows it *)
Definition p_item m ts : res ((option (list Z) -> items -> items) * list tok) :=
  match accept_value (asc "[") ts with
  | Some ts =>
      '(k, ts) <- p_expr m None ts ;;
      ts <- require_value (asc "]") ts ;; ts <- require_value (asc "=") ts ;;
      '(v, ts) <- p_expr m None ts ;; Ok (TIndex k v, ts)
  | None =>
      match ts with
      | _ :: Tok _ w :: _ =>
          if zeqb_list w (asc "=") then
            '(key, ts) <- require_ident ts ;; ts <- require_value (asc "=") ts ;;
            '(v, ts) <- p_expr m None ts ;; Ok (TMember key v, ts)
          else '(e, ts) <- p_expr m None ts ;; Ok (TItem e, ts)
      | _ => '(e, ts) <- p_expr m None ts ;; Ok (TItem e, ts)
      end
  end.
Definition closes (rest : list tok) : Prop := exists s r, rest = pt s :: r /\ In s ["}"; ","; ";"]%string.
Lemma closes_whole e rest : grammar e -> reads e -> closes rest -> runs (fun f => p_expr f None (print e ++ rest)) (e, rest).
Proof. intros G R (s & r & -> & I). cbn [In] in I. apply whole_sym; try easy; repeat (destruct I as [<-|I]; [reflexivity|]); easy. Qed.
Lemma items_tail pre mk sep its : hd_not ["}"]%string pre -> pre <> [] -> (forall rest, closes rest -> runs (fun m => p_item m (pre ++ rest)) (mk, rest)) ->
  (forall s i, print_items (mk s i) = pre ++ sep_toks s ++ print_items i) -> separator sep its -> reads_items its -> reads_items (mk sep its).
Proof.
  intros Hd Ne Hi Pr Sp R rest. apply runs_step. rewrite Pr, <- !app_assoc. eapply runs_ext; [intros m; apply eq_items|].
  replace (accept_value (asc "}") (pre ++ sep_toks sep ++ print_items its ++ pt "}" :: rest)) with (@None (list tok)).
  2:{ symmetry. apply (hd_accept _ ["}"]%string); [|now left]. destruct pre; easy. }
  eapply (runs_bind (fun m => p_item m _) (mk, sep_toks sep ++ print_items its ++ pt "}" :: rest)).
  { apply Hi. destruct sep as [v|]; cbn [separator] in Sp.
    - destruct Sp as [->| ->]; eexists _, _; (split; [reflexivity|]); cbn [In]; auto.
    - subst. exists "}"%string, rest. cbn [In]. auto. }
  cbn beta iota. destruct sep as [v|]; cbn [separator] in Sp.
  - destruct Sp as [->| ->]; cbn [sep_toks app].
    + change (Tok TPunct (asc ",")) with (pt ","). rewrite !acc_other by reflexivity. rewrite req_sym. cbn [bind].
      eapply (runs_bind (fun m => p_items m _)); [apply R|]. apply runs_const.
    + change (Tok TPunct (asc ";")) with (pt ";"). rewrite acc_other by reflexivity. rewrite acc_sym. cbn [bind].
      eapply (runs_bind (fun m => p_items m _)); [apply R|]. apply runs_const.
  - subst. cbn [sep_toks print_items app]. rewrite acc_sym. apply runs_const.
Qed.

Theorem all_reads :
  (forall e, grammar e -> reads e) /\ (forall args, grammar_args args -> reads_args args) /\ (forall its, grammar_items its -> reads_items its).
Proof.
  apply expr_all.
  - intros t G. apply core_reads; [easy|]. intros rest _ _. apply runs_step. eapply runs_ext; [intros m; apply eq_core|]. cbn [print app].
    cbn [S_Expr.grammar] in G. assert (C : const_tok t = true).
    { destruct t as [[] v|]; try easy; unfold const_tok; try apply orb_true_r. destruct G as [->|[->| ->]]; reflexivity. }
    destruct t as [ty v|]; [|easy]. rewrite C. apply runs_const.
  - intros _. apply core_reads; [easy|]. intros rest _ _. apply runs_step. eapply runs_ext; [intros m; apply eq_core|]. destruct lang; apply runs_const.
  - intros v G. apply core_reads; [easy|]. intros rest _ _. apply runs_step. eapply runs_ext; [intros m; apply eq_core|]. cbn [S_Expr.grammar] in G.
    cbn [print app const_tok map existsb]. rewrite !(plain_not v) by (easy || sym). rewrite (plain_no_unary _ _ G). apply runs_const.
  - intros body G. apply core_reads; [easy|]. intros rest _ _. apply runs_step. eapply runs_ext; [intros m; apply eq_core|].
    cbn [print app]. cbn [S_Expr.grammar] in G. unfold kw. rewrite (G rest). destruct lang; apply runs_const.
  - intros e IH G. specialize (IH G). apply core_reads; [easy|]. intros rest _ _. apply runs_step. cbn [print app]. rewrite <- app_assoc.
    eapply runs_ext; [intros m; rewrite eq_core; unfold pt at 1; reflexivity|]. cbn [const_tok map existsb].
    change (runs (fun m => '(e0, ts0) <- p_expr m None (print e ++ [pt ")"] ++ rest);; ts1 <- require_value (asc ")") ts0;; Ok (Group e0, ts1)) (Group e, rest)).
    eapply (runs_bind (fun m => p_expr m None _)); [apply (whole_sym e ")"); easy|]. cbn beta iota. rewrite req_sym. apply runs_const.
  - (* unary *)
    intros op e IH (U & G & T). specialize (IH G). apply core_reads; [easy|]. intros rest Ed Ed2. apply runs_step. cbn [print app].
    destruct (unary_core _ _ U) as (U1 & U2 & U3 & U4).
    eapply runs_ext; [intros m; rewrite eq_core; unfold op_tok; cbn [const_tok]; rewrite U4, U1, U2, U3; reflexivity|].
    replace (match (if is_keyword op then TKeyword else TPunct) with TNumber | TString => true | _ => false end) with false by (now destruct (is_keyword op)). cbn [orb].
    eapply (runs_bind (fun m => p_expr m (Some k_unary_ops_prec) _) (e, rest)); [|apply runs_const]. apply (operand_reads e 11); try easy.
    + destruct e; try exact I. destruct T as (n & Ln & Hn). exists (Z.of_nat n). split; [now apply level_prec|]. pose proof (level_range _ _ Ln) as Rg.
      assert (n = 12)%nat as -> by lia. assert (Ra : right_assoc op0) by (apply (right_level _ _ Ln); auto). apply right_spec in Ra. unfold compare_prec. now rewrite Ra.
    + intros n op0 l r -> Ln. destruct T as (n' & Ln' & Hn). now rewrite (level_unique _ _ _ Ln Ln').
    + lia.
  - (* binary *)
    intros op l IHl r IHr (Il & Gl & Gr & k & Lk & A). specialize (IHl Gl). specialize (IHr Gr). split; [|easy]. intros prec rest res (q & Eq & Cq) (q' & Eq' & St) Ns L.
    pose proof (proj1 (level_prec _ _) Lk) as Ek. rewrite Ek in Eq, Eq'. injection Eq as <-. injection Eq' as <-. cbn [edge2] in Ns. pose proof (level_range _ _ Lk) as Rk.
    assert (Rr : runs (fun f => p_expr f (Some (Z.of_nat k)) (print r ++ rest)) (r, rest)).
    { apply operand_reads; try easy.
      - destruct r as [| | | | | |op' l' r'| | | | |]; try exact I. destruct Gr as (_ & _ & _ & n & Ln & _). exists (Z.of_nat n). split; [now apply level_prec|]. unfold compare_prec.
        destruct A as [(_ & _ & [(n' & Ln' & Hn)|[]])|(Ra & _ & [(n' & Ln' & Hn)|[]])]; rewrite <- (level_unique _ _ _ Ln Ln') in Hn.
        + destruct (right_binary op'); lia.
        + destruct (right_binary op') eqn:Ro; [lia|]. assert (n <> k); [|lia]. intros ->. apply (right_level _ _ Lk) in Ra.
          apply (right_level _ _ Ln), right_spec in Ra. congruence.
      - intros n op' l' r' -> Ln. destruct A as [(_ & _ & [(n' & Ln' & Hn)|[]])|(Ra & _ & [(n' & Ln' & Hn)|[]])]; rewrite <- (level_unique _ _ _ Ln Ln') in Hn; lia.
      }
    cbn [print]. rewrite <- app_assoc. cbn [app]. destruct IHl as (IHl & _). apply IHl.
    + destruct l as [| | | | | |op' l' r'| | | | |]; try exact I. destruct Gl as (_ & _ & _ & n & Ln & _). exists (Z.of_nat n). split; [now apply level_prec|].
      destruct prec as [p|]; [|easy]. unfold compare_prec in *.
      destruct A as [(Na & (n' & Ln' & Hn) & _)|(Ra & (n' & Ln' & Hn) & _)]; rewrite <- (level_unique _ _ _ Ln Ln') in Hn.
      * destruct (right_binary op) eqn:Ro; [apply right_spec in Ro; easy|]. destruct (right_binary op'); lia.
      * apply right_spec in Ra. rewrite Ra in Cq. destruct (right_binary op'); lia.
    + assert (Sl : forall n, (if right_binary op then (k + 1 <= n)%nat else (k <= n)%nat) -> op_stops (Some (Z.of_nat n)) (op_tok op :: print r ++ rest)).
      { intros n Hn p Ep _. rewrite Ek in Ep. injection Ep as <-. unfold compare_prec. destruct (right_binary op); lia. }
      destruct l as [| | | | |op' l'|op' l' r'| | | | |]; try exact I.
      * apply (Sl 11%nat). destruct A as [(Na & T & _)|(Ra & T & _)]; cbn [tight] in T.
        -- destruct (right_binary op) eqn:Ro; [apply right_spec in Ro; easy|lia].
        -- apply right_spec in Ra. rewrite Ra. lia.
      * destruct Gl as (_ & _ & _ & n & Ln & _). exists (Z.of_nat n). split; [now apply level_prec|]. apply Sl.
        destruct A as [(Na & (n' & Ln' & Hn) & _)|(Ra & (n' & Ln' & Hn) & _)]; rewrite <- (level_unique _ _ _ Ln Ln') in Hn.
        -- destruct (right_binary op) eqn:Ro; [apply right_spec in Ro; easy|lia].
        -- apply right_spec in Ra. rewrite Ra. lia.
    + assert (nosuffix (op_tok op :: print r ++ rest)).
      { unfold op_tok. split; [now apply (op_not_suffix _ _ Ek)|now destruct (is_keyword op)]. } now destruct l.
    + now apply (loop_binary _ _ _ k).
  - intros e IH key (Ca & G & Pk). destruct (callable_not _ Ca) as (C1 & C2 & C3). apply (suffix_reads e _ [pt "."; Tok TIdent key]); auto; try easy.
    intros. now apply loop_member.
  - intros e IH k IHk (Ca & G & Gk). destruct (callable_not _ Ca) as (C1 & C2 & C3). apply (suffix_reads e _ (pt "[" :: print k ++ [pt "]"])); auto; try easy.
    intros. cbn [app]. rewrite <- app_assoc. apply loop_index; auto.
  - intros f IH short args IHa (Ca & G & Ga & Sh). destruct (callable_not _ Ca) as (C1 & C2 & C3).
    apply (suffix_reads f _ (if short then print_args args else pt "(" :: print_args args ++ [pt ")"])); auto; try easy.
    intros. destruct short; [apply loop_short; auto|]. cbn [app]. rewrite <- app_assoc. apply loop_call; auto.
  - intros e IH key short args IHa (Ca & G & Pk & Ga & Sh). destruct (callable_not _ Ca) as (C1 & C2 & C3).
    apply (suffix_reads e _ (pt ":" :: Tok TIdent key :: if short then print_args args else pt "(" :: print_args args ++ [pt ")"])); auto; try easy.
    intros. destruct short; [apply loop_method_short; auto|]. cbn [app]. rewrite <- app_assoc. apply loop_method; auto.
  - intros its IH G. specialize (IH G). apply core_reads; [easy|]. intros rest _ _. apply runs_step. cbn [print app]. rewrite <- app_assoc.
    eapply runs_ext; [intros m; rewrite eq_core; unfold pt at 1; reflexivity|]. cbn [const_tok map existsb].
    change (runs (fun m => '(its0, ts0) <- p_items m (print_items its ++ [pt "}"] ++ rest);; Ok (Table its0, ts0)) (Table its, rest)).
    eapply (runs_bind (fun m => p_items m _)); [apply IH|]. apply runs_const.
  - intros _. split; [|easy]. intros rest. apply runs_step. eapply runs_ext; [intros m; apply eq_args|]. cbn [print_args app]. rewrite acc_sym. apply runs_const.
  - intros e IH args IHa (G & Ga). specialize (IH G). specialize (IHa Ga).
    assert (More : forall rest, runs (fun f => p_more_args f (print_args (ACons e args) ++ pt ")" :: rest)) (ACons e args, rest)).
    { intros rest. apply runs_step. eapply runs_ext; [intros m; apply eq_more_args|]. destruct args as [|a args].
      - cbn [print_args]. eapply (runs_bind (fun m => p_expr m None _)); [apply (whole_sym e ")"); easy|]. cbn beta iota. rewrite acc_sym. apply runs_const.
      - change (print_args (ACons e (ACons a args))) with (print e ++ pt "," :: print_args (ACons a args)). rewrite <- app_assoc. cbn [app].
        eapply (runs_bind (fun m => p_expr m None _)); [apply (whole_sym e ","); easy|]. cbn beta iota. rewrite acc_other by reflexivity. rewrite req_sym. cbn [bind].
        destruct IHa as (_ & Hm & _). eapply (runs_bind (fun m => p_more_args m _)); [now apply Hm|]. apply runs_const. }
    split; [|split; [easy|now destruct args]]. intros rest. apply runs_step. eapply runs_ext; [intros m; apply eq_args|].
    replace (accept_value (asc ")") (print_args (ACons e args) ++ pt ")" :: rest)) with (@None (list tok)); [apply More|]. symmetry.
    assert (St : starts (print_args (ACons e args) ++ pt ")" :: rest)).
    { apply print_starts in G. destruct args; cbn [print_args]; rewrite <- ?app_assoc; now apply starts_app. }
    apply (hd_accept _ _ _ (proj2 St)). now left.
  - intros _ rest. apply runs_step. eapply runs_ext; [intros m; apply eq_items|]. cbn [print_items app]. rewrite acc_sym. apply runs_const.
  - intros k IHk v IHv sep its IH (Gk & Gv & Sp & Gi). specialize (IHk Gk). specialize (IHv Gv). specialize (IH Gi).
    apply (items_tail (pt "[" :: print k ++ pt "]" :: pt "=" :: print v)); try easy.
    + now apply not_in.
    + intros rest Cl. unfold p_item. cbn [app]. rewrite acc_sym, <- app_assoc. cbn [app].
      eapply (runs_bind (fun m => p_expr m None _)); [apply (whole_sym k "]"); easy|]. cbn beta iota. rewrite !req_sym. cbn [bind]. rewrite req_sym. cbn [bind].
      eapply (runs_bind (fun m => p_expr m None _)); [now apply closes_whole|]. apply runs_const.
    + intros s i. cbn [print_items app]. rewrite <- app_assoc. reflexivity.
  - intros key v IHv sep its IH (Pk & Gv & Sp & Gi). specialize (IHv Gv). specialize (IH Gi).
    apply (items_tail (Tok TIdent key :: pt "=" :: print v)); try easy.
    + cbn [hd_not]. apply plain_not_in; [easy|]. intros s [<-|[]]. sym.
    + intros rest Cl. unfold p_item. cbn [app accept_value require_ident bind]. rewrite (plain_not key) by (easy || sym). unfold pt at 1. rewrite zeqb_list_refl.
      change (Tok TPunct (asc "=")) with (pt "="). rewrite req_sym. cbn [bind].
      eapply (runs_bind (fun m => p_expr m None _)); [now apply closes_whole|]. apply runs_const.
  - intros e IHe sep its IH (G & Sp & Gi). specialize (IHe G). specialize (IH Gi). pose proof (print_starts _ G) as (Ne & Hd).
    apply (items_tail (print e)); try easy.
    + destruct (print e) as [|[ty v|] ts]; try easy. cbn [hd_not map In] in *. tauto.
    + intros rest Cl. unfold p_item.
      replace (accept_value (asc "[") (print e ++ rest)) with (@None (list tok)) by (symmetry; apply (hd_accept _ [")"; "}"; "["; "="]%string); [destruct (print e); easy|cbn [In]; auto]).
      assert (So : second_ok (print e ++ rest)).
      { apply print_second; [easy|]. destruct Cl as (s & r & -> & I). apply sym_hd. cbn [In] in I. repeat (destruct I as [<-|I]; [reflexivity|]). easy. }
      assert (It : runs (fun m => '(e0, ts0) <- p_expr m None (print e ++ rest);; Ok (TItem e0, ts0)) (TItem e, rest)).
      { eapply (runs_bind (fun m => p_expr m None _)); [now apply closes_whole|]. apply runs_const. }
      destruct (print e ++ rest) as [|t [|[ty w|] ts]]; try exact It. cbn [second_ok hd_not map In] in So.
      replace (zeqb_list w (asc "=")) with false; [exact It|]. symmetry. apply zeqb_neq. intros ->. apply So. now left.
Qed.

End Print.
