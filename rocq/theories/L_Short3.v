(** Changing shorthands: what Lua asks for stays true, and what stands next to what. *)
From Coq Require Import String List ZArith Lia Bool.
From Verif Require Import M_Base L_Util M_Fold M_Token M_Expr S_Expr L_Expr L_ExprPrint M_Stmt S_Stmt L_Stmt L_StmtEq L_StmtRead M_Emit S_Emit L_Emit L_Emit2 L_Emit4 M_Tidy S_Tidy L_Tidy L_Tidy2 L_Tidy3 S_Unmin L_Unmin6 M_Short S_Short L_Short L_Short2.
Import ListNotations.
Open Scope Z_scope.

Section Lua.
Context (o : opts).
Lemma assignable_sw c e : assignable e -> assignable (sw_ex o c e). Proof. now destruct e. Qed.
Lemma parens_sw c e : in_parens e -> in_parens (sw_ex o c e). Proof. now destruct e. Qed.
Lemma strip_lua e : lua_ex e -> lua_ex (strip e). Proof. induction e using ex_ind; cbn; auto. Qed.
Lemma strip_plain e : plain_ex e -> plain_ex (strip e). Proof. induction e using ex_ind; cbn; auto. Qed.
Lemma fill_lua w b : lua_blk w b -> lua_blk w (fill b). Proof. destruct b; [|easy]. now cbn. Qed.
Lemma fill_plain b : plain_blk b -> plain_blk (fill b). Proof. destruct b; [|easy]. now cbn. Qed.
Lemma fill_late b : no_late_do b -> no_late_do (fill b). Proof. destruct b; [|easy]. cbn. tauto. Qed.
(** What kind of statement it becomes. *)
Lemma sw_st_kind c s : (s = SSemi /\ sw_st o c s = SSemi) \/ (exists b, s = SDo b /\ sw_st o c s = SDo (sw_blk o (hide c) b)) \/ (exists es, s = SReturn es /\ sw_st o c s = SReturn (sw_exs o c es)) \/
  (match s with SSemi | SDo _ | SReturn _ => False | _ => True end /\ match sw_st o c s with SSemi | SDo _ | SReturn _ => False | _ => True end).
Proof.
  destruct s; cbn [sw_st]; eauto 8; right; right; right; (split; [exact I|]); try exact I.
  - now destruct (is_true _ && _).
  - now destruct (is_false _).
  - destruct (call_cases e) as [(x & sh & args & ->)|P]; [now destruct (new_print o && _)|]. change (match sw_st o c (SCall e) with SSemi | SDo _ | SReturn _ => False | _ => True end). now rewrite other_call.
Qed.
Lemma semis_sw c b : semis b -> semis (sw_blk o c b).
Proof. induction b as [|s b IH] using blk_ind; [easy|]. rewrite sw_cons. now destruct s. Qed.
Lemma do_sw c b : do_first (sw_blk o c b) -> do_first b.
Proof.
  induction b as [|s b IH] using blk_ind; [easy|]. rewrite sw_cons. destruct (sw_st_kind (match b with BNil => c | _ => hide c end) s) as [(-> & E)|[(b' & -> & E)|[(es & -> & E)|(K & K')]]]; try rewrite E.
  - exact IH.
  - easy.
  - easy.
  - cbn [do_first]. destruct (sw_st _ _ s); easy.
Qed.
Lemma late_sw c b : no_late_do b -> no_late_do (sw_blk o c b).
Proof.
  destruct b as [|s b]; [easy|]. rewrite sw_cons. destruct (sw_st_kind (match b with BNil => c | _ => hide c end) s) as [(-> & E)|[(b' & -> & E)|[(es & -> & E)|(K & K')]]]; try rewrite E; cbn [no_late_do]; try easy.
  - intros N D. now apply N, (do_sw c).
  - now destruct (sw_st _ _ s).
Qed.
Lemma body_sw c b : body_ok b -> body_ok (sw_blk o c b).
Proof. intros (N & D). split; [destruct b; [easy|rewrite sw_cons; discriminate]|]. intros F. now apply D, (do_sw c). Qed.
Lemma body_new c b : no_late_do b -> starts_with_do b = false -> body_ok (fill (sw_blk o c b)).
Proof.
  intros N S. split; [now destruct (sw_blk o c b)|]. assert (D : ~ do_first b) by (destruct b as [|[] b]; try easy). intros F. apply D, (do_sw c). now destruct (sw_blk o c b).
Qed.
Definition U_ex e := plain_ex e -> lua_ex e -> forall c, lua_ex (sw_ex o c e) /\ plain_ex (sw_ex o c e).
Definition U_exs e := plain_exs e -> lua_exs e -> forall c, lua_exs (sw_exs o c e) /\ plain_exs (sw_exs o c e).
Definition U_its e := plain_its e -> lua_its e -> forall c, lua_its (sw_its o c e) /\ plain_its (sw_its o c e).
Definition U_st e := plain_st e -> lua_st e -> forall c, lua_st (sw_st o c e) /\ plain_st (sw_st o c e).
Definition U_blk e := plain_blk e -> forall w, lua_blk w e -> forall c, lua_blk w (sw_blk o c e) /\ plain_blk (sw_blk o c e).
Definition U_ifs e := plain_ifs e -> lua_ifs e -> forall c el, lua_ifs (sw_ifs o c el e) /\ plain_ifs (sw_ifs o c el e).
Definition U_els e := (plain_els e -> lua_els e -> forall c, lua_els (sw_els o c e) /\ plain_els (sw_els o c e)) /\ match e with EElse b => U_blk b | _ => True end.
Lemma while_do c cond b l : may_while o c cond b l = true -> starts_with_do b = false.
Proof. unfold may_while. intros M. repeat (apply andb_prop in M; destruct M as (M & ?)). now destruct (starts_with_do b). Qed.
Lemma if_do c cond b l e l' : may_if o c cond b l e l' = true -> starts_with_do b = false /\ match e with EElif _ => False | _ => True end.
Proof. destruct e; cbn [may_if]; intros M; [split; [eapply while_do; exact M|exact I]| |discriminate M]. repeat (apply andb_prop in M; destruct M as (M & ?)). now destruct (starts_with_do b). Qed.
Ltac use := repeat match goal with
  | H : ?P -> ?L -> forall c, _, HP : ?P, HL : ?L |- _ => specialize (H HP HL)
  | H : ?P -> forall w, lua_blk w ?b -> _, HP : ?P, HL : lua_blk ?w ?b |- _ => specialize (H HP w HL)
  end.
Lemma all_lua_sw : (forall e, U_ex e) /\ (forall e, U_exs e) /\ (forall e, U_its e) /\ (forall s, U_st s) /\ (forall b, U_blk b) /\ (forall i, U_ifs i) /\ (forall e, U_els e).
Proof.
  apply prog_all; unfold U_ex, U_exs, U_its, U_st, U_ifs; intros; cbn [sw_ex sw_exs sw_its sw_st lua_ex lua_exs lua_its lua_st plain_ex plain_exs plain_its plain_st] in *; try easy.
  all: try (unfold U_blk in *; repeat match goal with H : _ /\ _ |- _ => destruct H end; use; repeat split; auto; try (eapply proj1; eauto; fail); try (eapply proj2; eauto; fail); fail).
  - (* SWhile *) destruct H1 as (P1 & P2 & P3), H2 as (L1 & L2). destruct (H P1 L1 c0) as (A1 & A2), (H0 P3 false L2 (hide c0)) as (B1 & B2). destruct (is_true _ && _) eqn:M.
    + apply andb_prop in M. destruct M as (_ & M). apply while_do in M. cbn [lua_st plain_st lua_ex plain_ex in_parens]. auto 12 using strip_lua, strip_plain, fill_lua, fill_plain, fill_late, late_sw, body_new.
    + cbn [lua_st plain_st]. auto 12 using strip_lua, strip_plain, late_sw.
  - (* SWhileShort *) destruct H1 as (P1 & P2 & P3), H2 as (L0 & L0' & L1 & L2). destruct (H P1 L1 (into false c0)) as (A1 & A2), (H0 P3 false L2 (into false c0)) as (B1 & B2). destruct (is_false _); cbn [lua_st plain_st]; auto 12 using strip_lua, strip_plain, late_sw, parens_sw, body_sw.
  - (* SAssign *) destruct H1 as (P0 & P1 & P2), H2 as (L0 & L1 & L2). destruct (H P1 L1 c), (H0 P2 L2 c). repeat split; auto; destruct targets; cbn [sw_exs]; auto using assignable_sw. unfold no_paren_at. now rewrite leads_sw.
  - (* SOp *) destruct H1 as (P0 & P1 & P2), H2 as (L0 & L1 & L2). destruct (H P1 L1 c), (H0 P2 L2 c). repeat split; auto using assignable_sw. unfold no_paren_at. now rewrite leads_sw.
  - (* SCall *) destruct H0 as (P0 & P1 & P2). destruct (H P2 H1 c) as (A & B). destruct (call_cases e) as [(x & sh & args & ->)|P].
    + cbn [sw_ex lua_ex plain_ex] in A, B. destruct (new_print o && _); cbn [lua_st plain_st lua_ex plain_ex].
      * tauto.
      * split; [tauto|]. split; [exact P0|]. split; [now destruct args|tauto].
    + change (lua_st (sw_st o c (SCall e)) /\ plain_st (sw_st o c (SCall e))). rewrite other_call by exact P. cbn [lua_st plain_st]. split; [exact A|]. split; [unfold no_paren_at; now rewrite leads_sw|]. split; [|exact B]. apply (plain_sw o c) in P. destruct (sw_ex o c e) as [| | | | | | | | |[]| |]; easy.
  - (* BCons *) intros (P1 & P2) w (L1 & L2 & L3) c. rewrite sw_cons. destruct (H P1 L1 (match b with BNil => c | _ => hide c end)) as (A1 & A2), (H0 P2 w L3 c) as (B1 & B2). cbn [lua_blk plain_blk]. repeat split; auto.
    destruct (sw_st_kind (match b with BNil => c | _ => hide c end) s) as [(-> & E)|[(b' & -> & E)|[(es & -> & E)|(K & K')]]]; try rewrite E; try exact I.
    + destruct L2 as (L2 & L4). split; [now apply semis_sw|]. intros F. apply L4. now destruct es.
    + now destruct (sw_st _ _ s).
  - (* ILong *) destruct H1 as (E & E'), H2 as (P1 & P2 & P3 & P4), H3 as (L1 & L2 & L3). destruct (H P1 L1 c0) as (A1 & A2), (H0 P3 false L2 (hide c0)) as (B1 & B2). cbn [sw_ifs]. destruct (is_true _ && _ && may_if _ _ _ _ _ _ _) eqn:M.
    + apply andb_prop in M. destruct M as (_ & M). apply if_do in M. destruct M as (M & M'). destruct e as [|b'|]; [| |easy]; cbn [lua_ifs plain_ifs lua_els plain_els lua_ex plain_ex in_parens].
      * auto 12 using strip_lua, strip_plain, fill_lua, fill_plain, fill_late, late_sw, body_new.
      * destruct (E' P4 false L3 (hide c0)). auto 12 using strip_lua, strip_plain, fill_lua, fill_plain, fill_late, late_sw, body_new.
    + destruct (E P4 L3 c0). cbn [lua_ifs plain_ifs]. auto 12 using strip_lua, strip_plain, late_sw.
  - (* IShort *) destruct H1 as (E & E'), H2 as (P1 & P2 & P3 & P4), H3 as (L0 & L0' & L1 & L2 & L3). destruct (H P1 L1 (into false c0)) as (A1 & A2). assert (B : forall c, lua_blk false (sw_blk o c b) /\ plain_blk (sw_blk o c b)) by (intros; auto).
    assert (G : forall c1 e', lua_els e' -> plain_els e' ->
      let r := if is_false (new_if o) && negb el then ILong (asc "then") (strip (sw_ex o (into false c0) c)) (sw_blk o c1 b) e' else IShort nested (sw_ex o (into false c0) c) (sw_blk o c1 b) e' in lua_ifs r /\ plain_ifs r).
    { intros c1 e' Le Pe. destruct (B c1) as (B1 & B2). destruct (is_false _ && _); cbn [lua_ifs plain_ifs]; auto 12 using strip_lua, strip_plain, late_sw, parens_sw, body_sw. }
    cbn [sw_ifs]. destruct e as [|b'|i]; apply G; auto; cbn [lua_els plain_els lua_els plain_els] in *; apply (E' P4 false L3).
  - split; [|assumption]. intros P L c. cbn [sw_els]. apply H; assumption.
  - split; [|exact I]. intros P L c. cbn [sw_els]. apply H; assumption.
Qed.
End Lua.

(** Where Lua's rules hold and no statement begins with a parenthesis, nothing can be read as
    going on with what is before. *)
Section Apart.
Context (lang : language).
Lemma quiet_head s : wf_st lang s -> lua_st s -> plain_st s -> quiet (Some (head_st s)).
Proof.
  intros W L P. destruct (head_start lang s W L) as [C|C]; [exact C|]. exfalso. unfold paren in C. destruct s; cbn [head_st plain_st] in *; try discriminate C.
  - destruct targets; [discriminate C|]. destruct P as (P & _). apply P. now rewrite leads_head.
  - destruct P as (P & _). apply P. now rewrite leads_head.
  - destruct P as (P & _). apply P. now rewrite leads_head.
Qed.
Lemma quiet_blk b w k : wf_blk lang b -> lua_blk w b -> plain_blk b -> quiet k -> quiet (head_blk b k).
Proof. destruct b as [|s b]; [easy|]. rewrite eq_wf_blk_l. intros (W & _) (L & _) (P & _) _. now apply quiet_head. Qed.
Definition V_ex e := wf lang e -> lua_ex e -> plain_ex e -> ap_ex lang e.
Definition V_exs e := wf_exs lang e -> lua_exs e -> plain_exs e -> ap_exs lang e.
Definition V_its e := wf_its lang e -> lua_its e -> plain_its e -> ap_its lang e.
Definition V_st s := wf_st lang s -> lua_st s -> plain_st s -> forall last h, quiet h -> (s = SReturn XNil -> next_is (";" :: closers)%string (nx h) \/ last = true) -> ap_st lang last h s.
Definition V_blk b := wf_blk lang b -> plain_blk b -> forall w, lua_blk w b -> forall short k, quiet k -> (w = true \/ short = true \/ next_is closers (nx k)) -> ap_blk lang short k b.
Definition V_ifs i := wf_ifs lang i -> lua_ifs i -> plain_ifs i -> forall h, quiet h -> ap_ifs lang h i.
Definition V_els e := (wf_els lang e -> lua_els e -> plain_els e -> forall h, quiet h -> ap_els lang h e) /\ match e with EElse b => V_blk b | _ => True end.
Lemma closed_blk b w : V_blk b -> wf_blk lang b -> plain_blk b -> lua_blk false b -> In w closers -> ap_blk lang false (Some (op_tok (asc w))) b.
Proof. intros A W P L I. destruct (closing w I) as (Q & C). apply (A W P false); auto. destruct Q as [Q|Q]; [exact Q|]. exfalso. cbn in I. repeat (destruct I as [<-|I]; [discriminate Q|]). easy. Qed.
Lemma ended_blk b : V_blk b -> wf_blk lang b -> plain_blk b -> lua_blk false b -> ap_blk lang false kend b.
Proof. intros. apply (closed_blk b "end"); auto. now left. Qed.
Lemma until_blk b : V_blk b -> wf_blk lang b -> plain_blk b -> lua_blk false b -> ap_blk lang false (Some (op_tok (asc "until"))) b.
Proof. intros. apply (closed_blk b "until"); auto. cbn. tauto. Qed.
Lemma paren_end c : in_parens c -> ends_paren c. Proof. now destruct c. Qed.
Lemma body_head b k w : wf_blk lang b -> lua_blk w b -> body_ok b -> ~ next_is ["do"]%string (nx (head_blk b k)).
Proof.
  intros W L (N & D). destruct b as [|s b]; [easy|]. rewrite (eq_wf_blk_l lang (BCons _ _)) in W. destruct W as (W & _), L as (L & _). cbn [head_blk]. apply (not_do lang); auto. intros b' ->. now apply D.
Qed.
Lemma then_not k : quiet k -> ~ next_is ["then"]%string (nx k).
Proof.
  destruct k as [t|]; [|easy]. intros [(x & -> & _ & P)|I].
  - cbn. intros [<-|[]]. discriminate P.
  - apply in_map_iff in I. destruct I as (s & <- & J). cbn in J. repeat (destruct J as [<-|J]; [cbn; intros [E|[]]; discriminate E|]). easy.
Qed.
Lemma quiet_else : quiet (Some (op_tok (asc "else"))). Proof. right. cbn. tauto. Qed.
Lemma all_ap_plain : (forall e, V_ex e) /\ (forall e, V_exs e) /\ (forall e, V_its e) /\ (forall s, V_st s) /\ (forall b, V_blk b) /\ (forall i, V_ifs i) /\ (forall e, V_els e).
Proof.
  apply prog_all; unfold V_ex, V_exs, V_its, V_st, V_ifs; intros; cbn [L_Emit2.ap_ex L_Emit2.ap_exs L_Emit2.ap_its L_Emit2.ap_st L_Emit2.ap_ifs lua_ex lua_exs lua_its lua_st lua_ifs plain_ex plain_exs plain_its plain_st plain_ifs] in *; try easy.
  all: repeat match goal with
    | H : wf _ (_ _) |- _ => rewrite eq_wf_l in H; cbv iota in H
    | H : wf_exs _ (_ _ _) |- _ => rewrite eq_wf_exs_l in H; cbv iota in H
    | H : wf_its _ (_ _) |- _ => rewrite eq_wf_its_l in H; cbv iota in H
    | H : wf_st _ (_ _) |- _ => rewrite eq_wf_st_l in H; cbv iota in H
    | H : wf_ifs _ (_ _ _) |- _ => rewrite eq_wf_ifs_l in H; cbv iota in H
    end.
  all: try (intuition (eauto using ended_blk, until_blk, quiet_list, quiet_follow, quiet_alone, quiet_string); fail).
  - (* SWhileShort *) destruct H1 as (W1 & W2), H2 as (L1 & L2 & L3 & L4), H3 as (P1 & P2 & P3). split; [auto|]. split; [now apply paren_end|]. split; [apply quiet_follow; now apply (quiet_blk b false)|]. split; [now apply (body_head b h false)|]. apply (H0 W2 P3 false L4); auto.
  - (* SReturn *) destruct es; [now apply H4|]. split; [auto|now apply quiet_list].
  - (* SLocal *) destruct es; [split; intros; now apply quiet_not|]. split; [tauto|now apply quiet_list].
  - (* SPrint *) destruct H0 as (_ & W). split; [auto|]. split; [now apply quiet_list|]. split; [now apply quiet_alone|]. split; [now apply quiet_not|now apply quiet_string].
  - (* BCons *) intros W P w L short k Q R. rewrite (eq_wf_blk_l lang (BCons _ _)) in W. destruct W as (W1 & W2), P as (P1 & P2), L as (L1 & L2 & L3). cbn [L_Emit2.ap_blk]. split; [|now apply (H0 W2 P2 w L3)].
    apply H; auto; [now apply (quiet_blk b w)|]. intros ->. destruct L2 as (S & R'). destruct b as [|s' b].
    + cbn [head_blk]. destruct R as [->|[->|R]]; [discriminate (R' eq_refl)|now right|]. left. destruct k as [[ty v|]|]; [|easy|easy]. now right.
    + left. destruct s'; try easy. cbn. tauto.
  - (* ILong *) destruct H1 as (E & _), H2 as (W0 & W1 & W2 & W3), H3 as (L1 & L2 & L3), H4 as (P1 & P2 & P3 & P4). split; [auto|]. split; [|auto].
    destruct e; cbn [head_els]; [apply (closed_blk b "end")|apply (closed_blk b "else")|apply (closed_blk b "elseif")]; auto; cbn; tauto.
  - (* IShort *) destruct H1 as (E & E'), H2 as (W1 & W2 & W3 & W4), H3 as (L1 & L2 & L3 & L4 & L5), H4 as (P1 & P2 & P3 & P4). split; [auto|]. split; [now apply paren_end|].
    assert (G : forall k, quiet k -> follow lang c (nx (head_blk b k)) /\ ~ next_is ["then"]%string (nx (head_blk b k)) /\ (lang = Pico8 -> ~ next_is ["do"]%string (nx (head_blk b k))) /\ ap_blk lang true k b).
    { intros k Q. split; [apply quiet_follow; now apply (quiet_blk b false)|]. split; [apply then_not; now apply (quiet_blk b false)|]. split; [intros _; now apply (body_head b k false)|]. apply (H0 W2 P3 false L4); auto. }
    destruct e as [|b'|]; [now apply G| |easy]. destruct (G (Some (op_tok (asc "else"))) quiet_else) as (G1 & G2 & G3 & G4). repeat split; auto. rewrite eq_wf_els_l in W3. apply (E' W3 P4 false L5); auto.
  - (* EElse *) split; [|assumption]. intros W L P h Q. rewrite eq_wf_els_l in W. now apply ended_blk.
Qed.
End Apart.
