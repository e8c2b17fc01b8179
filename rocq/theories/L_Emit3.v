(** What stands next to what in a program, read off its tokens. *)
From Coq Require Import String List ZArith Lia Bool.
From Verif Require Import M_Base L_Util M_Fold M_Token M_Expr S_Expr L_Expr L_ExprPrint M_Stmt S_Stmt L_Stmt L_StmtEq L_StmtRead M_Emit S_Emit L_Emit L_Emit2.
Import ListNotations.
Open Scope Z_scope.

Opaque S_Stmt.wf S_Stmt.wf_exs S_Stmt.wf_its S_Stmt.wf_st S_Stmt.wf_blk S_Stmt.wf_ifs S_Stmt.wf_els S_Stmt.lay S_Stmt.lay_list S_Stmt.lay_its S_Stmt.lay_st S_Stmt.lay_blk S_Stmt.lay_ifs S_Stmt.lay_els.

Section Apart.
Context (lang : language).
Notation wf := (wf lang).
Notation lay := (lay lang).
Notation lay_list := (lay_list lang).
Notation lay_its := (lay_its lang).
Notation lay_st := (lay_st lang).
Notation lay_blk := (lay_blk lang).
Notation lay_ifs := (lay_ifs lang).
Notation lay_els := (lay_els lang).
Notation ap_ex := (ap_ex lang).
Notation ap_exs := (ap_exs lang).
Notation ap_its := (ap_its lang).
Notation ap_st := (ap_st lang).
Notation ap_blk := (ap_blk lang).
Notation ap_ifs := (ap_ifs lang).
Notation ap_els := (ap_els lang).

Definition a_blk b := wf_blk lang b -> forall vl short ts rest, lay_blk vl b ts rest -> (short = false -> vl = None) -> ap_blk short (hd_tok rest) b.
Lemma all_apart : (forall e, wf e -> forall ts rest, lay e ts rest -> ap_ex e) /\ (forall es, wf_exs lang es -> forall ts rest, lay_list es ts rest -> ap_exs es) /\
  (forall i, wf_its lang i -> forall ts rest, lay_its i ts rest -> ap_its i) /\
  (forall s, wf_st lang s -> forall vl last ts rest, lay_st vl s ts rest -> (past vl rest -> last = true) -> ap_st last (hd_tok rest) s) /\
  (forall b, a_blk b) /\
  (forall i, wf_ifs lang i -> forall ts rest, lay_ifs i ts rest -> ap_ifs (hd_tok rest) i) /\
  (forall e, (wf_els lang e -> forall ts rest, lay_els e ts rest -> ap_els (hd_tok rest) e) /\ match e with EElse b => a_blk b | _ => True end).
Proof.
  assert (K : forall b, a_blk b -> wf_blk lang b -> forall ts rest t l, lay_blk None b ts ((t, l) :: rest) -> ap_blk false (Some t) b).
  { intros b B W ts rest t l L. apply (B W None false _ _ L). easy. }
  apply prog_all; try (intros; exact I).
  all: try (intros;
    try match goal with H : wf _ |- _ => rewrite eq_wf_l in H end;
    try match goal with H : lay _ _ _ |- _ => rewrite eq_lay_l in H end;
    try match goal with H : wf_its _ _ |- _ => rewrite eq_wf_its_l in H end;
    try match goal with H : lay_its _ _ _ |- _ => rewrite eq_lay_its_l in H end;
    try match goal with H : wf_st _ _ |- _ => rewrite eq_wf_st_l in H end;
    try match goal with H : lay_st _ _ _ _ |- _ => rewrite eq_lay_st_l in H end;
    cbv iota in *; cbn [L_Emit2.ap_ex L_Emit2.ap_exs L_Emit2.ap_its L_Emit2.ap_st]; unseq;
    repeat match goal with H : _ /\ _ |- _ => destruct H end; repeat split; eauto; fail).
  - intros f F s args A W ts rest L. rewrite eq_wf_l in W. rewrite eq_lay_l in L. cbv iota in W, L. cbn [L_Emit2.ap_ex]. destruct W as (_ & W & W' & _). destruct s; unseq; split; eauto.
  - intros f F key s args A W ts rest L. rewrite eq_wf_l in W. rewrite eq_lay_l in L. cbv iota in W, L. cbn [L_Emit2.ap_ex]. destruct W as (_ & W & _ & W' & _). destruct s; unseq; split; eauto.
  - intros i IH W ts rest L. rewrite eq_wf_l in W. rewrite eq_lay_l in L. cbv iota in W, L. cbn [L_Emit2.ap_ex]. unseq. eauto.
  - intros e E es IH W ts rest L. rewrite (eq_wf_exs_l lang (XCons _ _)) in W. rewrite (eq_lay_list_l lang (XCons _ _)) in L. cbv iota in W, L. cbn [L_Emit2.ap_exs]. destruct W as (W & W'). destruct es; [split; [eauto|exact I]|]. unseq. split; eauto.
  - intros n c C b B W vl last ts rest L P. rewrite eq_wf_st_l in W. rewrite eq_lay_st_l in L. cbv iota in W, L. cbn [L_Emit2.ap_st]. destruct W as (W & W'). destruct L as (l & L). unseq.
    match goal with H : lay c _ _ /\ _ |- _ => destruct H as (L & a & E) end. match goal with H : follow lang c _ /\ _ |- _ => destruct H as (F & N) end.
    match goal with H : lay_blk _ b ?p _ |- _ => rename H into LB; pose proof (blk_head lang _ _ _ _ W' LB) as H0 end. rewrite <- H0.
    split; [eauto|]. split; [|split; [|split]].
    + eapply last_paren; [exact W|exact L|]. rewrite E. apply last_snoc.
    + now apply (to_nx (follow lang c) _ (heady_follow lang c)).
    + now apply (to_nx (fun r => ~ next_is _ r) _ (heady_not _ (heady_next _))).
    + now apply (B W' _ _ _ _ LB).
  - intros b B c C W vl last ts rest L P. rewrite eq_wf_st_l in W. rewrite eq_lay_st_l in L. cbv iota in W, L. cbn [L_Emit2.ap_st]. destruct W as (W & W'). unseq. split; [eauto|]. split; [eauto|]. now apply (to_nx (follow lang c) _ (heady_follow lang c)).
  - intros x a A z Z step St b B W vl last ts rest L P. rewrite eq_wf_st_l in W. rewrite eq_lay_st_l in L. cbv iota in W, L. cbn [L_Emit2.ap_st]. destruct W as (_ & W1 & W2 & W3 & _ & W4). destruct step; unseq; (split; [eauto|]; split; [eauto|]; split; [first [exact I|eauto]|eauto]).
  - intros es IH W vl last ts rest L P. rewrite eq_wf_st_l in W. rewrite eq_lay_st_l in L. cbv iota in W, L. cbn [L_Emit2.ap_st]. destruct es as [|e es]; unseq.
    + destruct A as [A|A]; [left|right; auto]. now apply (to_nx (next_is _) _ (heady_next _)).
    + split; [eauto|]. now apply (to_nx (follow_list lang (XCons e es)) _ (heady_list lang _)).
  - intros xs es IH W vl last ts rest L P. rewrite eq_wf_st_l in W. rewrite eq_lay_st_l in L. cbv iota in W, L. cbn [L_Emit2.ap_st]. destruct W as (_ & _ & W). destruct es as [|e es]; unseq.
    + match goal with H : ~ next_is _ _ /\ _ |- _ => destruct H as (A1 & A2) end. split; [now apply (to_nx (fun r => ~ next_is _ r) _ (heady_not _ (heady_next _)))|]. intros X Y. now apply (to_nx (fun r => ~ next_is _ r) _ (heady_not _ (heady_next _))), A2.
    + split; [eauto|]. now apply (to_nx (follow_list lang (XCons e es)) _ (heady_list lang _)).
  - intros targets T es IH W vl last ts rest L P. rewrite eq_wf_st_l in W. rewrite eq_lay_st_l in L. cbv iota in W, L. cbn [L_Emit2.ap_st]. destruct W as (_ & W & _ & W'). unseq. split; [eauto|]. split; [eauto|]. now apply (to_nx (follow_list lang es) _ (heady_list lang _)).
  - intros target T op e IH W vl last ts rest L P. rewrite eq_wf_st_l in W. rewrite eq_lay_st_l in L. cbv iota in W, L. cbn [L_Emit2.ap_st]. destruct W as (W & _ & _ & W'). unseq. split; [eauto|]. split; [eauto|]. now apply (to_nx (follow lang e) _ (heady_follow lang _)).
  - intros es IH W vl last ts rest L P. rewrite eq_wf_st_l in W. rewrite eq_lay_st_l in L. cbv iota in W, L. cbn [L_Emit2.ap_st]. destruct W as (_ & W). unseq. match goal with H : follow_list _ _ _ /\ _ |- _ => destruct H as (A1 & A2 & A3 & A4) end.
    split; [eauto|]. split; [now apply (to_nx (follow_list lang es) _ (heady_list lang _))|]. split; [now apply (to_nx stands_alone _ heady_alone)|]. split; [now apply (to_nx (fun r => ~ next_is _ r) _ (heady_not _ (heady_next _)))|]. now apply (to_nx not_string _ heady_string).
  - intros e IH W vl last ts rest L P. rewrite eq_wf_st_l in W. rewrite eq_lay_st_l in L. cbv iota in W, L. cbn [L_Emit2.ap_st]. destruct W as (_ & W). unseq. match goal with H : follow _ _ _ /\ _ |- _ => destruct H as (A1 & A2) end.
    split; [eauto|]. split; [now apply (to_nx (follow lang e) _ (heady_follow lang _))|now apply (to_nx stands_alone _ heady_alone)].
  - intros s S b B W vl sh ts rest L P. rewrite (eq_wf_blk_l lang (BCons _ _)) in W. rewrite (eq_lay_blk_l lang _ (BCons _ _)) in L. cbv iota in W, L. cbn [L_Emit2.ap_blk]. destruct W as (W & W'). unseq.
    match goal with H : lay_blk _ b _ _ |- _ => rename H into LB; pose proof (blk_head lang _ _ _ _ W' LB) as H0 end. rewrite <- H0. split; [|eauto].
    match goal with H : lay_st _ s _ _ |- _ => apply (S W _ _ _ _ H) end. destruct b as [|s' b].
    + rewrite eq_lay_blk_l in LB. cbv iota in LB. unseq. intros Q. destruct sh; [easy|]. rewrite P in Q by easy. easy.
    + rewrite (eq_lay_blk_l lang _ (BCons _ _)) in LB. cbv iota in LB. unseq. easy.
  - intros w c C b B e (E & _) W ts rest L. rewrite eq_wf_ifs_l in W. rewrite eq_lay_ifs_l in L. cbv iota in W, L. cbn [L_Emit2.ap_ifs]. destruct W as (_ & W1 & W2 & W3). unseq. split; [eauto|]. split; [|eauto].
    match goal with H : lay_blk _ b _ _ |- _ => rename H into LB end. match goal with H : lay_els e ?p _ |- _ => rename H into LE; pose proof (B W2 None false _ _ LB (fun _ => eq_refl)) as Q; replace (Some (head_els e)) with (hd_tok (p ++ rest)); [exact Q|] end.
    rewrite eq_lay_els_l in LE. destruct e; cbv iota in LE; unseq; reflexivity.
  - intros n c C b B e (_ & E) W ts rest L. rewrite eq_wf_ifs_l in W. rewrite eq_lay_ifs_l in L. cbv iota in W, L. cbn [L_Emit2.ap_ifs]. destruct W as (W1 & W2 & W3 & W4). destruct L as (l & L). unseq.
    match goal with H : lay c _ _ /\ _ |- _ => destruct H as (L & a & Ea) end. match goal with H : follow lang c _ /\ _ |- _ => destruct H as (F & N1 & N2) end.
    match goal with H : lay_blk _ b ?p _ |- _ => rename H into LB; pose proof (blk_head lang _ _ _ _ W2 LB) as H0 end.
    split; [eauto|]. split; [eapply last_paren; [exact W1|exact L|]; rewrite Ea; apply last_snoc|].
    apply (to_nx (follow lang c) _ (heady_follow lang c)) in F. apply (to_nx (fun r => ~ next_is _ r) _ (heady_not _ (heady_next _))) in N1. pose proof (to_nx (fun r => lang = Pico8 -> ~ next_is ["do"]%string r) _ (heady_imp _ _ (heady_not _ (heady_next _))) N2) as N3.
    match goal with H : match e with EElse _ => _ | _ => _ end _ _ |- _ => rename H into LE end.
    destruct e as [|b'|i]; [|destruct LE as (? & ? & -> & -> & LB')|easy]; unseq.
    + rewrite H0 in *. split; [exact F|]. split; [exact N1|]. split; [exact N3|]. now apply (B W2 _ _ _ _ LB).
    + rewrite H0 in *. split; [exact F|]. split; [exact N1|]. split; [exact N3|]. split; [now apply (B W2 _ true _ _ LB)|]. rewrite eq_wf_els_l in W3. now apply (E W3 _ true _ _ LB').
  - intros b B. split; [|exact B]. intros W ts rest L. rewrite eq_wf_els_l in W. rewrite eq_lay_els_l in L. cbv iota in W, L. cbn [L_Emit2.ap_els]. unseq. eauto.
  - intros i IH. split; [|exact I]. intros W ts rest L. rewrite eq_wf_els_l in W. rewrite eq_lay_els_l in L. cbv iota in W, L. cbn [L_Emit2.ap_els]. unseq. eauto.
Qed.
Lemma program_apart b ts : program lang b ts -> ap_blk false None b.
Proof. intros (W & L). destruct all_apart as (_ & _ & _ & _ & B & _). apply (B b W None false ts [] L). easy. Qed.
End Apart.
