(** What the expression parser returns is in the grammar and has the tokens read. *)
From Coq Require Import String List ZArith Lia Bool.
From Verif Require Import M_Base L_Util M_Fold M_Token M_Expr S_Expr L_Expr.
Import ListNotations.
Open Scope Z_scope.

Section Sound.
Context (lang : language) (rf : list tok -> res (list tok * list tok)).
Context (Rf : forall ts body rest, rf ts = Ok (body, rest) -> ts = body ++ rest /\ forall rest', rf (body ++ rest') = Ok (body, rest')).
Notation p_expr := (p_expr lang rf).
Notation p_core := (p_core lang rf).
Notation p_loop := (p_loop lang rf).
Notation p_args := (p_args lang rf).
Notation p_more_args := (p_more_args lang rf).
Notation p_items := (p_items lang rf).
Notation grammar := (grammar lang rf).
Notation grammar_args := (grammar_args lang rf).
Notation grammar_items := (grammar_items lang rf).

(** One step of each function. *)
Lemma eq_expr fuel (prec : option Z) (ts : list tok) : p_expr (S fuel) prec ts =
 '(e, ts) <- p_core fuel ts ;; p_loop fuel prec e ts.
Proof. reflexivity. Qed.
Lemma eq_core fuel (ts : list tok) : p_core (S fuel) ts =
 match ts with
      | Tok ty v :: ts =>
          if const_tok (Tok ty v) then Ok (Const (Tok ty v), ts)
          else if zeqb_list v (asc "{") then '(its, ts) <- p_items fuel ts ;; Ok (Table its, ts)
          else if zeqb_list v (asc "(") then
            '(e, ts) <- p_expr fuel None ts ;;
            ts <- require_value (asc ")") ts ;;
            Ok (Group e, ts)
          else if unary_op lang v then '(e, ts) <- p_expr fuel (Some k_unary_ops_prec) ts ;; Ok (Unary v e, ts)
          else if zeqb_list v (asc "?") then Err ECheck
          else if zeqb_list v (asc "function") then '(body, ts) <- rf ts ;; Ok (Fun body, ts)
          else if zeqb_list v (asc "...") then Ok (Varargs, ts)
          else match ty with TIdent => Ok (Var v, ts) | _ => Err ECheck end
      | _ => Err ECheck
      end.
Proof. reflexivity. Qed.
Lemma eq_loop fuel (prec : option Z) (e : expr) (ts : list tok) : p_loop (S fuel) prec e ts =
 match ts with
      | Tok ty v :: ts' =>
          if zeqb_list v (asc ".") && prefix_type e then
            '(key, ts) <- require_ident ts' ;; p_loop fuel prec (Member e key) ts
          else if zeqb_list v (asc "[") && prefix_type e then
            '(k, ts) <- p_expr fuel None ts' ;; ts <- require_value (asc "]") ts ;; p_loop fuel prec (Index e k) ts
          else if zeqb_list v (asc "(") && prefix_type e then
            '(args, ts) <- p_args fuel ts' ;; p_loop fuel prec (Call e false args) ts
          else if short_arg ts && prefix_type e then
            '(arg, ts) <- p_core fuel ts ;; p_loop fuel prec (Call e true (ACons arg ANil)) ts
          else if zeqb_list v (asc ":") && prefix_type e then
            '(key, ts) <- require_ident ts' ;;
            if short_arg ts then
              '(arg, ts) <- p_core fuel ts ;; p_loop fuel prec (Method e key true (ACons arg ANil)) ts
            else
              ts <- require_value (asc "(") ts ;;
              '(args, ts) <- p_args fuel ts ;; p_loop fuel prec (Method e key false args) ts
          else
            match binary_prec v with
            | Some p =>
                if binary_lang lang v && compare_prec v p prec then
                  '(other, ts) <- p_expr fuel (Some p) ts' ;; p_loop fuel prec (Binary v e other) ts
                else Ok (e, ts)
            | None => Ok (e, ts)
            end
      | _ => Ok (e, ts)
      end.
Proof. reflexivity. Qed.
Lemma eq_args fuel (ts : list tok) : p_args (S fuel) ts =
 match accept_value (asc ")") ts with
      | Some ts => Ok (ANil, ts)
      | None => p_more_args fuel ts
      end.
Proof. reflexivity. Qed.
Lemma eq_more_args fuel (ts : list tok) : p_more_args (S fuel) ts =
 '(e, ts) <- p_expr fuel None ts ;;
      match accept_value (asc ")") ts with
      | Some ts => Ok (ACons e ANil, ts)
      | None =>
          ts <- require_value (asc ",") ts ;;
          '(args, ts) <- p_more_args fuel ts ;; Ok (ACons e args, ts)
      end.
Proof. reflexivity. Qed.
Lemma eq_items fuel (ts : list tok) : p_items (S fuel) ts =
 match accept_value (asc "}") ts with
      | Some ts => Ok (TNil, ts)
      | None =>
          '(mk, ts) <-
            match accept_value (asc "[") ts with
            | Some ts =>
                '(k, ts) <- p_expr fuel None ts ;;
                ts <- require_value (asc "]") ts ;; ts <- require_value (asc "=") ts ;;
                '(v, ts) <- p_expr fuel None ts ;; Ok (TIndex k v, ts)
            | None =>
                match ts with
                | _ :: Tok _ w :: _ =>
                    if zeqb_list w (asc "=") then
                      '(key, ts) <- require_ident ts ;; ts <- require_value (asc "=") ts ;;
                      '(v, ts) <- p_expr fuel None ts ;; Ok (TMember key v, ts)
                    else '(e, ts) <- p_expr fuel None ts ;; Ok (TItem e, ts)
                | _ => '(e, ts) <- p_expr fuel None ts ;; Ok (TItem e, ts)
                end
            end ;;
          match accept_value (asc "}") ts with
          | Some ts => Ok (mk None TNil, ts)
          | None =>
              '(sep, ts) <- match accept_value (asc ";") ts with
                            | Some ts => Ok (asc ";", ts)
                            | None => ts <- require_value (asc ",") ts ;; Ok (asc ",", ts)
                            end ;;
              '(its, ts) <- p_items fuel ts ;; Ok (mk (Some sep) its, ts)
          end
      end.
Proof. reflexivity. Qed.

Definition op_stops (k : option Z) (rest : list tok) : Prop :=
  match rest with
  | Tok _ v :: _ => forall p, binary_prec v = Some p -> binary_lang lang v = true -> compare_prec v p k = false
  | _ => True
  end.
Definition allowed (prec : option Z) (e : expr) : Prop :=
  match e with Binary op _ _ => exists q, binary_prec op = Some q /\ compare_prec op q prec = true | _ => True end.
Definition edge (e : expr) (rest : list tok) : Prop :=
  match e with
  | Binary op _ _ => exists q, binary_prec op = Some q /\ op_stops (Some q) rest
  | Unary _ _ => op_stops (Some 11) rest
  | _ => True
  end.
Definition not_binary (e : expr) : Prop := match e with Binary _ _ _ => False | _ => True end.

Lemma proper_sym ty s : proper (Tok ty (asc s)) -> In (asc s) symbols -> Tok ty (asc s) = op_tok (asc s).
Proof.
  unfold op_tok. intros P I. destruct ty; cbn [proper] in P; try (destruct P as (N & _); easy); now rewrite P.
Qed.
Lemma proper_op ty v : proper (Tok ty v) -> In v symbols -> Tok ty v = op_tok v.
Proof. unfold op_tok. intros P I. destruct ty; cbn [proper] in P; try (destruct P as (N & _); easy); now rewrite P. Qed.
Lemma accept_tok s ts ts' : In (asc s) symbols -> is_keyword (asc s) = false -> accept_value (asc s) ts = Some ts' ->
  Forall proper ts -> ts = pt s :: ts' /\ Forall proper ts'.
Proof.
  intros I K E F. destruct ts as [|[ty w|] ts]; cbn in E; try easy. destruct (zeqb_list w (asc s)) eqn:Q; [|easy]. injection E as ->.
  apply zeqb_sound in Q. subst. inversion_clear F as [|? ? P F']. rewrite (proper_sym _ _ P I). unfold op_tok. rewrite K. easy.
Qed.
Lemma require_tok s ts ts' : In (asc s) symbols -> is_keyword (asc s) = false -> require_value (asc s) ts = Ok ts' ->
  Forall proper ts -> ts = pt s :: ts' /\ Forall proper ts'.
Proof. unfold require_value. intros I K. destruct (accept_value _ _) eqn:E; [|easy]. intros [= ->]. now apply accept_tok. Qed.
Lemma ident_tok_ok ts w ts' : require_ident ts = Ok (w, ts') -> Forall proper ts -> ts = Tok TIdent w :: ts' /\ plain_word w /\ Forall proper ts'.
Proof. destruct ts as [|[[] v|] ts]; cbn; try easy. intros [= -> ->] F. now inversion_clear F. Qed.
Ltac sym := first [reflexivity | (apply existsb_in; reflexivity)].

Lemma edge_tight v k p e rest ty : binary_prec v = Some p -> p = Z.of_nat k -> binary_lang lang v = true -> edge e (Tok ty v :: rest) ->
  if right_binary v then tight e (k + 1) else tight e k.
Proof.
  intros E -> L Ed. destruct e; try (destruct (right_binary v); exact I).
  - cbn [edge op_stops] in Ed. specialize (Ed _ E L). unfold compare_prec in Ed. destruct (right_binary v); cbn [tight]; lia.
  - cbn [edge] in Ed. destruct Ed as (q & Eq & St). specialize (St _ E L). destruct (prec_nat _ _ Eq) as (n & -> & Ln).
    unfold compare_prec in St. destruct (right_binary v); exists n; (split; [exact Ln|lia]).
Qed.
Lemma allowed_tight v k e : level_of v k -> allowed (Some (Z.of_nat k)) e -> if right_binary v then tight e k \/ is_unary e else tight e (k + 1) \/ is_unary e.
Proof.
  intros L A. destruct e; try (destruct (right_binary v); left; exact I).
  - destruct (right_binary v); right; exact I.
  - destruct A as (q & Eq & C). destruct (prec_nat _ _ Eq) as (n & -> & Ln). cbn [compare_prec] in C.
    destruct (right_binary v) eqn:Rv, (right_binary op) eqn:Ro; left; exists n; (split; [exact Ln|]); try lia.
    assert (N : n <> k); [|lia]. intros ->. apply right_spec in Ro. rewrite (right_level _ _ Ln) in Ro. rewrite <- (right_level _ _ L), <- right_spec in Ro. congruence.
Qed.

Lemma parse_sound n :
  (forall prec ts e rest, p_expr n prec ts = Ok (e, rest) -> Forall proper ts ->
     ts = print e ++ rest /\ Forall proper rest /\ grammar e /\ allowed prec e /\ op_stops prec rest) /\
  (forall ts e rest, p_core n ts = Ok (e, rest) -> Forall proper ts ->
     ts = print e ++ rest /\ Forall proper rest /\ grammar e /\ edge e rest /\ not_binary e /\ (short_arg ts = true -> short_args (ACons e ANil))) /\
  (forall prec e0 ts e rest, p_loop n prec e0 ts = Ok (e, rest) -> Forall proper ts -> grammar e0 -> allowed prec e0 -> edge e0 ts ->
     (exists mid, ts = mid ++ rest /\ print e = print e0 ++ mid) /\ Forall proper rest /\ grammar e /\ allowed prec e /\ op_stops prec rest) /\
  (forall ts args rest, p_args n ts = Ok (args, rest) -> Forall proper ts ->
     ts = print_args args ++ pt ")" :: rest /\ Forall proper rest /\ grammar_args args) /\
  (forall ts args rest, p_more_args n ts = Ok (args, rest) -> Forall proper ts ->
     ts = print_args args ++ pt ")" :: rest /\ Forall proper rest /\ grammar_args args /\ args <> ANil) /\
  (forall ts its rest, p_items n ts = Ok (its, rest) -> Forall proper ts ->
     ts = print_items its ++ pt "}" :: rest /\ Forall proper rest /\ grammar_items its).
Proof.
  induction n as [|n (IE & IC & IL & IA & IM & II)]; [repeat apply conj; intros; discriminate|].
  repeat apply conj.
  - intros prec ts e rest E F. rewrite eq_expr in E. destruct (p_core n ts) as [(e0, ts0)|] eqn:E0; [|discriminate E]. cbn [bind] in E.
    destruct (IC _ _ _ E0 F) as (-> & F0 & G & Ed & Nb & _).
    destruct (IL _ _ _ _ _ E F0 G) as ((mid & -> & Pm) & Fr & Ge & Al & St); [now destruct e0|easy|].
    rewrite Pm, <- app_assoc. easy.
  - intros ts e rest E F. rewrite eq_core in E. destruct ts as [|[ty v|] ts]; try discriminate E. inversion F as [|? ? Pt F']; subst.
    destruct (const_tok (Tok ty v)) eqn:Ec.
    { injection E as <- <-. repeat apply conj; try easy.
      - cbn [S_Expr.grammar]. cbn [const_tok] in Ec. apply orb_prop in Ec as [Ec|Ec].
        + apply existsb_in in Ec. assert (I : In v symbols) by (cbn [map In] in Ec; repeat (destruct Ec as [<-|Ec]; [sym|]); easy).
          destruct ty; cbn [proper] in Pt; try (destruct Pt; easy).
          * cbn [constant]. cbn [map In] in Ec. intuition.
          * exfalso. cbn [map In] in Ec. repeat (destruct Ec as [<-|Ec]; [discriminate Pt|]). easy.
        + destruct ty; try discriminate Ec; exact Pt.
      - unfold short_arg. intros H. apply orb_prop in H as [H|H].
        + apply zeqb_sound in H. subst. cbn [const_tok] in Ec. destruct ty; try discriminate Ec; cbn [proper] in Pt; destruct Pt as (N & _); exfalso; apply N; sym.
        + cbn [short_args]. destruct ty; easy. }
    destruct (zeqb_list v (asc "{")) eqn:Q1.
    { apply zeqb_sound in Q1. subst v. destruct (p_items n ts) as [(its, ts0)|] eqn:E0; [|discriminate E]. injection E as <- <-.
      destruct (II _ _ _ E0 F') as (-> & F0 & G). rewrite (proper_sym ty "{" Pt) by sym. repeat apply conj; try easy.
      cbn [print app]. rewrite <- app_assoc. reflexivity. }
    destruct (zeqb_list v (asc "(")) eqn:Q2.
    { apply zeqb_sound in Q2. subst v. destruct (p_expr n None ts) as [(e0, ts0)|] eqn:E0; [|discriminate E]. cbn [bind] in E.
      destruct (require_value _ ts0) as [ts1|] eqn:E1; [|discriminate E]. injection E as <- <-.
      destruct (IE _ _ _ _ E0 F') as (-> & F0 & G & _). destruct (require_tok ")" _ _ ltac:(sym) eq_refl E1 F0) as (-> & F1).
      rewrite (proper_sym ty "(" Pt) by sym. repeat apply conj; try easy.
      cbn [print app]. rewrite <- app_assoc. reflexivity. }
    destruct (unary_op lang v) eqn:Q3.
    { destruct (p_expr n (Some 11) ts) as [(e0, ts0)|] eqn:E0; unfold k_unary_ops_prec in E; rewrite E0 in E; [|discriminate E]. injection E as <- <-.
      destruct (IE _ _ _ _ E0 F') as (-> & F0 & G & Al & St). pose proof (proj1 (unary_spec _ _) Q3) as U.
      assert (I : In v symbols). { destruct U as [I|(-> & _)]; [|sym]. cbn [map In] in I. repeat (destruct I as [<-|I]; [sym|]); easy. }
      rewrite (proper_op ty v Pt I). repeat apply conj; try easy.
      - destruct e0; try exact Logic.I; cbn [tight]; [lia|]. destruct Al as (q & Eq & C). destruct (prec_nat _ _ Eq) as (k & -> & Lk).
        exists k. split; [easy|]. cbn [compare_prec] in C. destruct (right_binary op); lia.
      - unfold short_arg. unfold op_tok. rewrite Q1. now destruct (is_keyword v). }
    destruct (zeqb_list v (asc "?")) eqn:Q4; [discriminate E|].
    destruct (zeqb_list v (asc "function")) eqn:Q5.
    { apply zeqb_sound in Q5. subst v. destruct (rf ts) as [(b, r)|] eqn:E0; [|discriminate E]. injection E as <- <-.
      destruct (Rf _ _ _ E0) as (-> & H). rewrite (proper_sym ty "function" Pt) by sym. repeat apply conj; try easy.
      now apply Forall_app in F'. }
    destruct (zeqb_list v (asc "...")) eqn:Q6.
    { apply zeqb_sound in Q6. subst v. injection E as <- <-. rewrite (proper_sym ty "..." Pt) by sym. now repeat apply conj. }
    destruct ty; try discriminate E. injection E as <- <-. repeat apply conj; try easy; try apply Pt. all: unfold short_arg; now rewrite Q1.
  - intros prec e0 ts e rest E F G Al Ed. rewrite eq_loop in E.
    assert (Done : op_stops prec ts -> Ok (e0, ts) = Ok (e, rest) -> (exists mid, ts = mid ++ rest /\ print e = print e0 ++ mid) /\
      Forall proper rest /\ grammar e /\ allowed prec e /\ op_stops prec rest).
    { intros St [= <- <-]. split; [exists []; now rewrite app_nil_r|easy]. }
    destruct ts as [|[ty v|] ts]; [now apply Done| |now apply Done]. inversion F as [|? ? Pt F']; subst.
    assert (Cb : forall e, prefix_type e = true -> callable e) by (intros []; easy).
    assert (Ty : forall s, In (asc s) symbols -> v = asc s -> Tok ty v = op_tok (asc s)) by (intros s I ->; now apply proper_sym).
    (* the loop goes on behind [pre] with a longer expression *)
    assert (Go : forall pre e1 ts1, Tok ty v :: ts = pre ++ ts1 -> Forall proper ts1 -> print e1 = print e0 ++ pre -> grammar e1 -> allowed prec e1 -> edge e1 ts1 ->
      p_loop n prec e1 ts1 = Ok (e, rest) -> (exists mid, Tok ty v :: ts = mid ++ rest /\ print e = print e0 ++ mid) /\
        Forall proper rest /\ grammar e /\ allowed prec e /\ op_stops prec rest).
    { intros pre e1 ts1 Et F1 P1 G1 A1 Ed1 El. destruct (IL _ _ _ _ _ El F1 G1 A1 Ed1) as ((mid & -> & Pm) & K). split; [|exact K].
      exists (pre ++ mid). rewrite Et, Pm, P1. now rewrite !app_assoc. }
    destruct (zeqb_list v (asc ".") && prefix_type e0) eqn:Q1.
    { apply andb_prop in Q1 as (Q1 & Pe). apply zeqb_sound in Q1. destruct (require_ident ts) as [(key, ts1)|] eqn:E1; [|discriminate E]. cbn [bind] in E.
      destruct (ident_tok_ok _ _ _ E1 F') as (-> & Pk & F1). apply (Go [pt "."; Tok TIdent key] (Member e0 key) ts1); try easy.
      - rewrite (Ty "."%string) by (easy || sym). reflexivity.
      - cbn [S_Expr.grammar]. auto. }
    destruct (zeqb_list v (asc "[") && prefix_type e0) eqn:Q2.
    { apply andb_prop in Q2 as (Q2 & Pe). apply zeqb_sound in Q2. destruct (p_expr n None ts) as [(k, ts1)|] eqn:E1; [|discriminate E]. cbn [bind] in E.
      destruct (require_value _ ts1) as [ts2|] eqn:E2; [|discriminate E]. cbn [bind] in E.
      destruct (IE _ _ _ _ E1 F') as (-> & F1 & Gk & _). destruct (require_tok "]" _ _ ltac:(sym) eq_refl E2 F1) as (-> & F2).
      apply (Go (pt "[" :: print k ++ [pt "]"]) (Index e0 k) ts2); try easy.
      - rewrite (Ty "["%string) by (easy || sym). cbn [app]. rewrite <- app_assoc. reflexivity.
      - cbn [S_Expr.grammar]. auto. }
    destruct (zeqb_list v (asc "(") && prefix_type e0) eqn:Q3.
    { apply andb_prop in Q3 as (Q3 & Pe). apply zeqb_sound in Q3. destruct (p_args n ts) as [(args, ts1)|] eqn:E1; [|discriminate E]. cbn [bind] in E.
      destruct (IA _ _ _ E1 F') as (-> & F1 & Ga).
      apply (Go (pt "(" :: print_args args ++ [pt ")"]) (Call e0 false args) ts1); try easy.
      - rewrite (Ty "("%string) by (easy || sym). cbn [app]. rewrite <- app_assoc. reflexivity.
      - cbn [S_Expr.grammar]. repeat apply conj; auto. easy. }
    destruct (short_arg (Tok ty v :: ts) && prefix_type e0) eqn:Q4.
    { apply andb_prop in Q4 as (Q4 & Pe). destruct (p_core n (Tok ty v :: ts)) as [(arg, ts1)|] eqn:E1; [|discriminate E]. cbn [bind] in E.
      destruct (IC _ _ _ E1 F) as (Et & F1 & Ga & _ & _ & Sh).
      apply (Go (print arg) (Call e0 true (ACons arg ANil)) ts1); try easy.
      cbn [S_Expr.grammar S_Expr.grammar_args]. repeat apply conj; auto. }
    destruct (zeqb_list v (asc ":") && prefix_type e0) eqn:Q5.
    { apply andb_prop in Q5 as (Q5 & Pe). apply zeqb_sound in Q5. destruct (require_ident ts) as [(key, ts1)|] eqn:E1; [|discriminate E]. cbn [bind] in E.
      destruct (ident_tok_ok _ _ _ E1 F') as (-> & Pk & F1). destruct (short_arg ts1) eqn:Q6.
      - destruct (p_core n ts1) as [(arg, ts2)|] eqn:E2; [|discriminate E]. cbn [bind] in E.
        destruct (IC _ _ _ E2 F1) as (-> & F2 & Ga & _ & _ & Sh).
        apply (Go (pt ":" :: Tok TIdent key :: print arg) (Method e0 key true (ACons arg ANil)) ts2); try easy.
        + rewrite (Ty ":"%string) by (easy || sym). reflexivity.
        + cbn [S_Expr.grammar S_Expr.grammar_args]. repeat apply conj; auto; apply Pk.
      - destruct (require_value _ ts1) as [ts2|] eqn:E2; [|discriminate E]. cbn [bind] in E.
        destruct (require_tok "(" _ _ ltac:(sym) eq_refl E2 F1) as (-> & F2).
        destruct (p_args n ts2) as [(args, ts3)|] eqn:E3; [|discriminate E]. cbn [bind] in E.
        destruct (IA _ _ _ E3 F2) as (-> & F3 & Ga).
        apply (Go (pt ":" :: Tok TIdent key :: pt "(" :: print_args args ++ [pt ")"]) (Method e0 key false args) ts3); try easy.
        + rewrite (Ty ":"%string) by (easy || sym). cbn [app]. rewrite <- app_assoc. reflexivity.
        + cbn [S_Expr.grammar]. repeat apply conj; auto; (apply Pk || easy). }
    destruct (binary_prec v) as [p|] eqn:Ep.
    2:{ apply Done; [|exact E]. intros q Eq. congruence. }
    destruct (binary_lang lang v && compare_prec v p prec) eqn:Q6.
    2:{ apply Done; [|exact E]. intros q Eq Lq. rewrite Ep in Eq. injection Eq as <-. rewrite Lq in Q6. exact Q6. }
    apply andb_prop in Q6 as (Ql & Qc). destruct (p_expr n (Some p) ts) as [(other, ts1)|] eqn:E1; [|discriminate E]. cbn [bind] in E.
    destruct (IE _ _ _ _ E1 F') as (-> & F1 & Go' & Ao & So). destruct (prec_nat _ _ Ep) as (k & -> & Lk).
    assert (I : In v symbols).
    { pose proof Ep as Ei. apply prec_get_in in Ei. assert (H : forallb (fun x => existsb (zeqb_list (fst x)) symbols) k_binary_op_precs = true) by (vm_compute; reflexivity).
      rewrite forallb_forall in H. specialize (H _ Ei). now apply existsb_in in H. }
    apply (Go (op_tok v :: print other) (Binary v e0 other) ts1); try easy.
    + rewrite (proper_op ty v Pt I). reflexivity.
    + cbn [S_Expr.grammar]. split; [now apply lang_spec|]. split; [easy|]. split; [easy|]. exists k. split; [easy|].
      pose proof (edge_tight v k _ e0 _ _ Ep eq_refl Ql Ed) as T1. pose proof (allowed_tight v k other Lk Ao) as T2.
      destruct (right_binary v) eqn:Rv; [right; split; [now apply right_spec|easy]|left]. split; [|easy].
      intros Ra. apply right_spec in Ra. congruence.
    + cbn [allowed]. exists (Z.of_nat k). auto.
    + cbn [edge]. exists (Z.of_nat k). auto.
  - intros ts args rest E F. rewrite eq_args in E. destruct (accept_value (asc ")") ts) as [ts1|] eqn:E1.
    + injection E as <- <-. destruct (accept_tok ")" _ _ ltac:(sym) eq_refl E1 F) as (-> & F1). easy.
    + destruct (IM _ _ _ E F) as (A & B & C & _). easy.
  - intros ts args rest E F. rewrite eq_more_args in E. destruct (p_expr n None ts) as [(e, ts1)|] eqn:E1; [|discriminate E]. cbn [bind] in E.
    destruct (IE _ _ _ _ E1 F) as (-> & F1 & G & _). destruct (accept_value (asc ")") ts1) as [ts2|] eqn:E2.
    + injection E as <- <-. destruct (accept_tok ")" _ _ ltac:(sym) eq_refl E2 F1) as (-> & F2). easy.
    + destruct (require_value _ ts1) as [ts2|] eqn:E3; [|discriminate E]. cbn [bind] in E.
      destruct (require_tok "," _ _ ltac:(sym) eq_refl E3 F1) as (-> & F2). destruct (p_more_args n ts2) as [(args', ts3)|] eqn:E4; [|discriminate E].
      injection E as <- <-. destruct (IM _ _ _ E4 F2) as (-> & F3 & Ga & Ne). destruct args' as [|a args']; [easy|].
      split; [cbn [print_args]; rewrite <- app_assoc; reflexivity|]. split; [easy|]. split; [|easy]. split; easy.
  - intros ts its rest E F. rewrite eq_items in E. destruct (accept_value (asc "}") ts) as [ts1|] eqn:E1.
    { injection E as <- <-. destruct (accept_tok "}" _ _ ltac:(sym) eq_refl E1 F) as (-> & F1). easy. }
    match type of E with bind ?m _ = _ => destruct m as [(mk, ts1)|] eqn:Em; [|discriminate E] end. cbn [bind] in E.
    (* what the item is *)
    assert (It : exists pre, ts = pre ++ ts1 /\ Forall proper ts1 /\ forall sep its', print_items (mk sep its') = pre ++ sep_toks sep ++ print_items its' /\
      (separator sep its' -> grammar_items its' -> grammar_items (mk sep its'))).
    { assert (Item : forall t0, p_expr n None t0 = p_expr n None t0 -> t0 = ts -> ('(e, ts) <- p_expr n None ts;; Ok (TItem e, ts)) = Ok (mk, ts1) ->
        exists pre, ts = pre ++ ts1 /\ Forall proper ts1 /\ forall sep its', print_items (mk sep its') = pre ++ sep_toks sep ++ print_items its' /\
        (separator sep its' -> grammar_items its' -> grammar_items (mk sep its'))).
      { intros _ _ _ Ei. destruct (p_expr n None ts) as [(e, ts2)|] eqn:E2; [|discriminate Ei]. injection Ei as <- <-.
        destruct (IE _ _ _ _ E2 F) as (-> & F2 & G & _). exists (print e). now repeat apply conj. }
      destruct (accept_value (asc "[") ts) as [ts2|] eqn:E2.
      - destruct (accept_tok "[" _ _ ltac:(sym) eq_refl E2 F) as (-> & F2). destruct (p_expr n None ts2) as [(k, ts3)|] eqn:E3; [|discriminate Em]. cbn [bind] in Em.
        destruct (IE _ _ _ _ E3 F2) as (-> & F3 & Gk & _). destruct (require_value _ ts3) as [ts4|] eqn:E4; [|discriminate Em]. cbn [bind] in Em.
        destruct (require_tok "]" _ _ ltac:(sym) eq_refl E4 F3) as (-> & F4). destruct (require_value _ ts4) as [ts5|] eqn:E5; [|discriminate Em]. cbn [bind] in Em.
        destruct (require_tok "=" _ _ ltac:(sym) eq_refl E5 F4) as (-> & F5). destruct (p_expr n None ts5) as [(v, ts6)|] eqn:E6; [|discriminate Em]. injection Em as <- <-.
        destruct (IE _ _ _ _ E6 F5) as (-> & F6 & Gv & _). exists (pt "[" :: print k ++ pt "]" :: pt "=" :: print v).
        split; [cbn [app]; rewrite <- app_assoc; reflexivity|]. split; [easy|]. intros sep its'. split; [cbn [print_items app]; rewrite <- app_assoc; reflexivity|easy].
      - destruct ts as [|t [|[ty w|] ts]]; try (now apply (Item _ eq_refl eq_refl)).
        destruct (zeqb_list w (asc "=")) eqn:Qw; [|now apply (Item _ eq_refl eq_refl)]. clear Item.
        destruct (require_ident (t :: Tok ty w :: ts)) as [(key, ts3)|] eqn:E3; [|discriminate Em]. cbn [bind] in Em.
        destruct (ident_tok_ok _ _ _ E3 F) as (Et & Pk & F3). destruct (require_value _ ts3) as [ts4|] eqn:E4; [|discriminate Em]. cbn [bind] in Em.
        destruct (require_tok "=" _ _ ltac:(sym) eq_refl E4 F3) as (-> & F4). destruct (p_expr n None ts4) as [(v, ts6)|] eqn:E6; [|discriminate Em]. injection Em as <- <-.
        destruct (IE _ _ _ _ E6 F4) as (-> & F6 & Gv & _). rewrite Et. exists (Tok TIdent key :: pt "=" :: print v). now repeat apply conj. }
    destruct It as (pre & -> & F1 & It). destruct (accept_value (asc "}") ts1) as [ts2|] eqn:E2.
    { injection E as <- <-. destruct (accept_tok "}" _ _ ltac:(sym) eq_refl E2 F1) as (-> & F2). destruct (It None TNil) as (P & G).
      rewrite P. cbn [sep_toks app]. cbn [print_items]. rewrite app_nil_r. repeat apply conj; try easy. now apply G. }
    match type of E with bind ?m _ = _ => destruct m as [(sep, ts2)|] eqn:Es; [|discriminate E] end. cbn [bind] in E.
    assert (Sp : ts1 = Tok TPunct sep :: ts2 /\ Forall proper ts2 /\ (sep = asc "," \/ sep = asc ";")).
    { destruct (accept_value (asc ";") ts1) as [ts3|] eqn:E3.
      - injection Es as <- <-. destruct (accept_tok ";" _ _ ltac:(sym) eq_refl E3 F1) as (-> & F3). auto.
      - destruct (require_value _ ts1) as [ts3|] eqn:E4; [|discriminate Es]. injection Es as <- <-.
        destruct (require_tok "," _ _ ltac:(sym) eq_refl E4 F1) as (-> & F3). auto. }
    destruct Sp as (-> & F2 & Sp). destruct (p_items n ts2) as [(its', ts3)|] eqn:E3; [|discriminate E]. injection E as <- <-.
    destruct (II _ _ _ E3 F2) as (-> & F3 & Gi). destruct (It (Some sep) its') as (P & G). rewrite P. repeat apply conj; try easy.
    + cbn [sep_toks app]. rewrite <- app_assoc. reflexivity.
    + now apply G.
Qed.
End Sound.
