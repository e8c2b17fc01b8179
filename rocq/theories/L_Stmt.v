(** Lemmas on the statement parser: fuel. *)
From Coq Require Import String List ZArith Lia Bool.
From Verif Require Import M_Base L_Util M_Fold M_Token M_Expr S_Expr L_Expr M_Stmt S_Stmt.
Import ListNotations.
Open Scope Z_scope.

Scheme ex_mut := Induction for ex Sort Prop
  with exs_mut := Induction for exs Sort Prop
  with its_mut := Induction for its Sort Prop
  with st_mut := Induction for st Sort Prop
  with blk_mut := Induction for blk Sort Prop
  with ifs_mut := Induction for ifs Sort Prop
  with els_mut := Induction for els Sort Prop.
Combined Scheme prog_all from ex_mut, exs_mut, its_mut, st_mut, blk_mut, ifs_mut, els_mut.

Section Fuel.
Context (lang : language).
Notation acc_then := (acc_then lang).
Notation p_ex := (p_ex lang).
Notation p_core := (p_core lang).
Notation p_loop := (p_loop lang).
Notation p_args := (p_args lang).
Notation p_list := (p_list lang).
Notation p_its := (p_its lang).
Notation p_fun := (p_fun lang).
Notation p_if := (p_if lang).
Notation p_stmt := (p_stmt lang).
Notation p_blk := (p_blk lang).

(** One step of each function. *)
Lemma eq_ex fuel (prec : option Z) (ts : list ltok) : p_ex (S fuel) prec ts = '(e, ts) <- p_core fuel ts ;; p_loop fuel prec e ts.
Proof. reflexivity. Qed.
Lemma eq_core fuel (ts : list ltok) : p_core (S fuel) ts =
      match ts with
      | (Tok ty v, _) :: ts =>
          if const_tok (Tok ty v) then Ok (XConst (Tok ty v), ts)
          else if zeqb_list v (asc "{") then '(i, ts) <- p_its fuel ts ;; Ok (XTab i, ts)
          else if zeqb_list v (asc "(") then
            '(e, ts) <- p_ex fuel None ts ;;
            ts <- req ")" ts ;;
            Ok (XGroup e, ts)
          else if unary_op lang v then '(e, ts) <- p_ex fuel (Some k_unary_ops_prec) ts ;; Ok (XUn v e, ts)
          else if zeqb_list v (asc "?") then Err ECheck
          else if zeqb_list v (asc "function") then '((ps, b), ts) <- p_fun fuel ts ;; Ok (XFun ps b, ts)
          else if zeqb_list v (asc "...") then Ok (XDots, ts)
          else match ty with TIdent => Ok (XVar v, ts) | _ => Err ECheck end
      | _ => Err ECheck
      end.
Proof. reflexivity. Qed.
Lemma eq_loop fuel (prec : option Z) (e : ex) (ts : list ltok) : p_loop (S fuel) prec e ts =
      match ts with
      | (Tok ty v, _) :: ts' =>
          if zeqb_list v (asc ".") && prefix_ex e then
            '(key, ts) <- idt ts' ;; p_loop fuel prec (XMem e key) ts
          else if zeqb_list v (asc "[") && prefix_ex e then
            '(k, ts) <- p_ex fuel None ts' ;; ts <- req "]" ts ;; p_loop fuel prec (XIdx e k) ts
          else if zeqb_list v (asc "(") && prefix_ex e then
            '(args, ts) <- p_args fuel ts' ;; p_loop fuel prec (XCall e false args) ts
          else if short_ahead ts && prefix_ex e then
            '(arg, ts) <- p_core fuel ts ;; p_loop fuel prec (XCall e true (XCons arg XNil)) ts
          else if zeqb_list v (asc ":") && prefix_ex e then
            '(key, ts) <- idt ts' ;;
            if short_ahead ts then
              '(arg, ts) <- p_core fuel ts ;; p_loop fuel prec (XMeth e key true (XCons arg XNil)) ts
            else
              ts <- req "(" ts ;;
              '(args, ts) <- p_args fuel ts ;; p_loop fuel prec (XMeth e key false args) ts
          else
            match binary_prec v with
            | Some p =>
                if binary_lang lang v && compare_prec v p prec then
                  '(other, ts) <- p_ex fuel (Some p) ts' ;; p_loop fuel prec (XBin v e other) ts
                else Ok (e, ts)
            | None => Ok (e, ts)
            end
      | _ => Ok (e, ts)
      end.
Proof. reflexivity. Qed.
Lemma eq_args fuel (ts : list ltok) : p_args (S fuel) ts =
      match acc ")" ts with
      | Some ts => Ok (XNil, ts)
      | None => '(es, ts) <- p_list fuel ts ;; ts <- req ")" ts ;; Ok (es, ts)
      end.
Proof. reflexivity. Qed.
Lemma eq_list fuel (ts : list ltok) : p_list (S fuel) ts =
      '(e, ts) <- p_ex fuel None ts ;;
      match acc "," ts with
      | Some ts => '(es, ts) <- p_list fuel ts ;; Ok (XCons e es, ts)
      | None => Ok (XCons e XNil, ts)
      end.
Proof. reflexivity. Qed.
Lemma eq_its fuel (ts : list ltok) : p_its (S fuel) ts =
      match acc "}" ts with
      | Some ts => Ok (INil, ts)
      | None =>
          '(mk, ts) <-
            match acc "[" ts with
            | Some ts =>
                '(k, ts) <- p_ex fuel None ts ;;
                ts <- req "]" ts ;; ts <- req "=" ts ;;
                '(v, ts) <- p_ex fuel None ts ;; Ok (IIdx k v, ts)
            | None =>
                match ts with
                | _ :: (Tok _ w, _) :: _ =>
                    if zeqb_list w (asc "=") then
                      '(key, ts) <- idt ts ;; ts <- req "=" ts ;;
                      '(v, ts) <- p_ex fuel None ts ;; Ok (IMem key v, ts)
                    else '(e, ts) <- p_ex fuel None ts ;; Ok (IItem e, ts)
                | _ => '(e, ts) <- p_ex fuel None ts ;; Ok (IItem e, ts)
                end
            end ;;
          match acc "}" ts with
          | Some ts => Ok (mk None INil, ts)
          | None =>
              '(sep, ts) <- match acc ";" ts with
                            | Some ts => Ok (asc ";", ts)
                            | None => ts <- req "," ts ;; Ok (asc ",", ts)
                            end ;;
              '(i, ts) <- p_its fuel ts ;; Ok (mk (Some sep) i, ts)
          end
      end.
Proof. reflexivity. Qed.
Lemma eq_fun fuel (ts : list ltok) : p_fun (S fuel) ts =
      '(ps, ts) <- p_params fuel ts ;;
      '(b, ts) <- p_blk fuel None ts ;;
      ts <- req "end" ts ;;
      Ok ((ps, b), ts).
Proof. reflexivity. Qed.
Lemma eq_if fuel (ts : list ltok) : p_if (S fuel) ts =
      '(c, ts1) <- p_ex fuel None ts ;;
      match acc_then ts1 with
      | Some (w, ts) =>
          '(b, ts) <- p_blk fuel None ts ;;
          match acc "else" ts with
          | Some ts => '(b', ts) <- p_blk fuel None ts ;; ts <- req "end" ts ;; Ok (ILong w c b (EElse b'), ts)
          | None =>
              match acc "elseif" ts with
              | Some ts => '(i, ts) <- p_if fuel ts ;; Ok (ILong w c b (EElif i), ts)
              | None => ts <- req "end" ts ;; Ok (ILong w c b ENone, ts)
              end
          end
      | None =>
          match prev_tok ts ts1 with
          | Some (Tok _ v, l) =>
              if zeqb_list v (asc ")") then
                '(b, ts) <- p_blk fuel (Some l) ts1 ;;
                match (if on_line l ts then acc "else" ts else None) with
                | Some ts => '(b', ts) <- p_blk fuel (Some l) ts ;; Ok (IShort (on_line l ts) c b (EElse b'), ts)
                | None => Ok (IShort (on_line l ts) c b ENone, ts)
                end
              else Err ECheck
          | _ => Err ECheck
          end
      end.
Proof. reflexivity. Qed.
Lemma eq_stmt fuel (vl : option Z) (ts : list ltok) : p_stmt (S fuel) vl ts =
      match ts with
      | (Tok _ v, _) :: ts' =>
          if zeqb_list v (asc ";") then Ok (SSemi, ts')
          else if zeqb_list v (asc "do") then
            '(b, ts) <- p_blk fuel None ts' ;; ts <- req "end" ts ;; Ok (SDo b, ts)
          else if zeqb_list v (asc "if") then '(i, ts) <- p_if fuel ts' ;; Ok (SIf i, ts)
          else if zeqb_list v (asc "while") then
            '(c, ts1) <- p_ex fuel None ts' ;;
            match acc "do" ts1 with
            | Some ts => '(b, ts) <- p_blk fuel None ts ;; ts <- req "end" ts ;; Ok (SWhile c b, ts)
            | None =>
                match prev_tok ts' ts1 with
                | Some (Tok _ v, l) =>
                    if zeqb_list v (asc ")") then
                      '(b, ts) <- p_blk fuel (Some l) ts1 ;; Ok (SWhileShort (on_line l ts) c b, ts)
                    else Err ECheck
                | _ => Err ECheck
                end
            end
          else if zeqb_list v (asc "repeat") then
            '(b, ts) <- p_blk fuel None ts' ;; ts <- req "until" ts ;;
            '(c, ts) <- p_ex fuel None ts ;; Ok (SRepeat b c, ts)
          else if zeqb_list v (asc "for") then
            if match ts' with _ :: (Tok _ w, _) :: _ => zeqb_list w (asc "=") | _ => false end then
              '(x, ts) <- idt ts' ;; ts <- req "=" ts ;;
              '(a, ts) <- p_ex fuel None ts ;; ts <- req "," ts ;;
              '(z, ts) <- p_ex fuel None ts ;;
              '(step, ts) <- match acc "," ts with
                             | Some ts => '(e, ts) <- p_ex fuel None ts ;; Ok (XCons e XNil, ts)
                             | None => Ok (XNil, ts)
                             end ;;
              ts <- req "do" ts ;; '(b, ts) <- p_blk fuel None ts ;; ts <- req "end" ts ;;
              Ok (SFor x a z step b, ts)
            else
              '(xs, ts) <- p_vars fuel false ts' ;; ts <- req "in" ts ;;
              '(es, ts) <- p_list fuel ts ;;
              ts <- req "do" ts ;; '(b, ts) <- p_blk fuel None ts ;; ts <- req "end" ts ;;
              Ok (SForIn (map fst xs) es b, ts)
          else if zeqb_list v (asc "break") then Ok (SBreak, ts')
          else if zeqb_list v (asc "return") then
            if returns_nothing vl ts' then Ok (SReturn XNil, ts')
            else '(es, ts) <- p_list fuel ts' ;; Ok (SReturn es, ts)
          else if zeqb_list v (asc "local") then
            match acc "function" ts' with
            | Some ts => '(x, ts) <- idt ts ;; '((ps, b), ts) <- p_fun fuel ts ;; Ok (SLocalFun x ps b, ts)
            | None =>
                '(xs, ts) <- p_vars fuel (negb (is_pico8 lang)) ts' ;;
                match acc "=" ts with
                | Some ts => '(es, ts) <- p_list fuel ts ;; Ok (SLocal xs es, ts)
                | None => Ok (SLocal xs XNil, ts)
                end
            end
          else if zeqb_list v (asc "goto") then '(x, ts) <- idt ts' ;; Ok (SGoto x, ts)
          else if zeqb_list v (asc "::") then '(x, ts) <- idt ts' ;; ts <- req "::" ts ;; Ok (SLabel x, ts)
          else if zeqb_list v (asc "function") then
            '(x, ts) <- idt ts' ;; '(path, ts) <- p_path fuel ts ;; '(m, ts) <- p_meth ts ;;
            '((ps, b), ts) <- p_fun fuel ts ;; Ok (SFun x path m ps b, ts)
          else if zeqb_list v (asc "?") then
            '(es, ts) <- p_list fuel ts' ;; if goes_on ts then Err ECheck else Ok (SPrint es, ts)
          else
            '(e, ts) <- p_ex fuel None ts ;;
            match ts with
            | (Tok ty w, _) :: ts' =>
                if zeqb_list w (asc ",") then
                  '(more, ts) <- p_list fuel ts' ;; ts <- req "=" ts ;;
                  '(es, ts) <- p_list fuel ts ;; Ok (SAssign (XCons e more) es, ts)
                else if zeqb_list w (asc "=") then
                  '(es, ts) <- p_list fuel ts' ;; Ok (SAssign (XCons e XNil) es, ts)
                else if match ty with TPunct => ends_eq w | _ => false end then
                  '(e', ts) <- p_ex fuel None ts' ;; Ok (SOp e w e', ts)
                else match e with XCall _ _ _ | XMeth _ _ _ _ => Ok (SCall e, ts) | _ => Err ECheck end
            | _ => match e with XCall _ _ _ | XMeth _ _ _ _ => Ok (SCall e, ts) | _ => Err ECheck end
            end
      | _ => Err ECheck
      end.
Proof. reflexivity. Qed.
Lemma eq_blk fuel (vl : option Z) (ts : list ltok) : p_blk (S fuel) vl ts =
      match ts with
      | [] => Ok (BNil, ts)
      | (t, _) :: _ =>
          if beyond vl ts then Ok (BNil, ts)
          else if match t with Tok _ v => block_end v | TErr => false end then Ok (BNil, ts)
          else '(s, ts) <- p_stmt fuel vl ts ;; '(b, ts) <- p_blk fuel vl ts ;; Ok (BCons s b, ts)
      end.
Proof. reflexivity. Qed.

Opaque M_Stmt.p_ex M_Stmt.p_core M_Stmt.p_loop M_Stmt.p_args M_Stmt.p_list M_Stmt.p_its M_Stmt.p_fun M_Stmt.p_if M_Stmt.p_stmt M_Stmt.p_blk.

Ltac mono_tac := repeat first
  [ match goal with |- mono ?x ?x => exact (mono_refl x) end
  | match goal with a : (_ * _)%type |- _ => destruct a end
  | match goal with |- mono (bind _ _) _ => apply mono_bind; [|intros ?] end
  | match goal with |- mono (if ?b then _ else _) _ => destruct b end
  | match goal with |- mono (match ?x with _ => _ end) _ => destruct x end
  | match goal with H : forall _, mono _ _ |- _ => apply H | H : forall _ _, mono _ _ |- _ => apply H | H : forall _ _ _, mono _ _ |- _ => apply H end ].

Lemma small_mono n : forall m, (n <= m)%nat ->
  (forall a ts, mono (p_vars n a ts) (p_vars m a ts)) /\
  (forall ts, mono (p_more_params n ts) (p_more_params m ts)) /\
  (forall ts, mono (p_params n ts) (p_params m ts)) /\
  (forall ts, mono (p_path n ts) (p_path m ts)).
Proof.
  assert (H : forall m, (n <= m)%nat -> (forall a ts, mono (p_vars n a ts) (p_vars m a ts)) /\
    (forall ts, mono (p_more_params n ts) (p_more_params m ts)) /\ (forall ts, mono (p_path n ts) (p_path m ts))).
  { induction n as [|n IH]; intros m Hm; [repeat split; now left|]. destruct m as [|m]; [lia|].
    destruct (IH m ltac:(lia)) as (I1 & I2 & I3). repeat apply conj; intros; [cbn [p_vars]|cbn [p_more_params]|cbn [p_path]]; mono_tac. }
  intros m Hm. destruct (H m Hm) as (I1 & I2 & I3). repeat apply conj; auto. intros ts. unfold p_params. mono_tac.
Qed.
Lemma stmt_mono n : forall m, (n <= m)%nat ->
  (forall prec ts, mono (p_ex n prec ts) (p_ex m prec ts)) /\
  (forall ts, mono (p_core n ts) (p_core m ts)) /\
  (forall prec e ts, mono (p_loop n prec e ts) (p_loop m prec e ts)) /\
  (forall ts, mono (p_args n ts) (p_args m ts)) /\
  (forall ts, mono (p_list n ts) (p_list m ts)) /\
  (forall ts, mono (p_its n ts) (p_its m ts)) /\
  (forall ts, mono (p_fun n ts) (p_fun m ts)) /\
  (forall ts, mono (p_if n ts) (p_if m ts)) /\
  (forall vl ts, mono (p_stmt n vl ts) (p_stmt m vl ts)) /\
  (forall vl ts, mono (p_blk n vl ts) (p_blk m vl ts)).
Proof.
  induction n as [|n IH]; intros m Hm; [repeat split; now left|]. destruct m as [|m]; [lia|].
  destruct (IH m ltac:(lia)) as (IE & IC & IL & IA & IM & II & IF & Ii & IS & IB). destruct (small_mono n m ltac:(lia)) as (J1 & J2 & J3 & J4). clear IH Hm.
  repeat apply conj; intros.
  - rewrite ?eq_ex. mono_tac.
  - rewrite ?eq_core. mono_tac.
  - rewrite ?eq_loop. mono_tac.
  - rewrite ?eq_args. mono_tac.
  - rewrite ?eq_list. mono_tac.
  - rewrite ?eq_its. mono_tac.
  - rewrite ?eq_fun. mono_tac.
  - rewrite ?eq_if. mono_tac.
  - rewrite ?eq_stmt. mono_tac.
  - rewrite ?eq_blk. mono_tac.
Qed.

(** Enough fuel is never used up. *)
Definition fits {A} (bound : nat) (r : res (A * list ltok)) : Prop :=
  match r with Ok (_, rest) => (length rest < bound)%nat | Err e => e <> EFuel end.
Lemma fits_bind {A B} n m (r : res (A * list ltok)) (k : A * list ltok -> res (B * list ltok)) : fits n r ->
  (forall a rest, (length rest < n)%nat -> fits m (k (a, rest))) -> fits m (bind r k).
Proof. destruct r as [(a, rest)|e]; cbn; [intros H K; now apply K|easy]. Qed.
Lemma acc_len s ts ts' : acc s ts = Some ts' -> length ts = S (length ts').
Proof. destruct ts as [|[[ty w|] l] ts]; cbn; try easy. destruct (zeqb_list w (asc s)); [|easy]. intros [= ->]. reflexivity. Qed.
Lemma req_fits {B} s ts m (k : list ltok -> res (B * list ltok)) :
  (forall ts', S (length ts') = length ts -> fits m (k ts')) -> fits m (bind (req s ts) k).
Proof. unfold req. destruct (acc s ts) as [ts'|] eqn:E; [|easy]. apply acc_len in E. intros K. apply K. lia. Qed.
Lemma idt_fits {B} ts m (k : list Z * list ltok -> res (B * list ltok)) :
  (forall w ts', S (length ts') = length ts -> fits m (k (w, ts'))) -> fits m (bind (idt ts) k).
Proof. unfold idt. destruct ts as [|[[[] w|] l] ts]; try easy. intros K. now apply K. Qed.
Lemma fits_le {A} n m (r : res (A * list ltok)) : (n <= m)%nat -> fits n r -> fits m r.
Proof. destruct r as [(a, rest)|e]; cbn; [lia|easy]. Qed.
Lemma acc_then_len ts w ts' : acc_then ts = Some (w, ts') -> length ts = S (length ts').
Proof.
  unfold acc_then. destruct (acc "then" ts) eqn:E; [intros [= <- <-]; now apply acc_len in E|]. destruct (is_pico8 lang); [|easy].
  destruct (acc "do" ts) eqn:E2; [|easy]. intros [= <- <-]. now apply acc_len in E2.
Qed.

Lemma var_fits a ts : fits (length ts) (p_var a ts).
Proof.
  unfold p_var. apply idt_fits. intros w ts' H. destruct a; [|cbn; lia]. destruct (acc "<" ts') as [ts2|] eqn:E; [|cbn; lia]. apply acc_len in E.
  destruct ts2 as [|[[[] v|] l] ts2]; try easy. destruct (_ || _); [|easy]. apply req_fits. intros. cbn [fits length] in *. lia.
Qed.
Lemma param_fits ts : fits (length ts) (p_param ts).
Proof. unfold p_param. destruct (acc "..." ts) eqn:E; [apply acc_len in E; cbn; lia|]. apply idt_fits. intros. cbn. lia. Qed.
Lemma meth_fits ts : fits (S (length ts)) (p_meth ts).
Proof. unfold p_meth. destruct (acc ":" ts) eqn:E; [|cbn; lia]. apply acc_len in E. apply idt_fits. intros. cbn. lia. Qed.
Lemma small_fits n :
  (forall a ts, (length ts + 1 <= n)%nat -> fits (length ts) (p_vars n a ts)) /\
  (forall ts, (length ts + 1 <= n)%nat -> fits (length ts) (p_more_params n ts)) /\
  (forall ts, (length ts + 1 <= n)%nat -> fits (S (length ts)) (p_path n ts)).
Proof.
  induction n as [|n (I1 & I2 & I3)]; [repeat split; intros; lia|]. repeat apply conj; intros.
  - cbn [p_vars]. eapply fits_bind; [apply var_fits|]. intros x r Hr. destruct (acc "," r) eqn:E; [|cbn; lia]. apply acc_len in E.
    eapply fits_bind; [apply I1; lia|]. intros xs r2 H2. cbn. lia.
  - cbn [p_more_params]. eapply fits_bind; [apply param_fits|]. intros x r Hr. destruct (acc ")" r) eqn:E; [apply acc_len in E; cbn; lia|].
    apply req_fits. intros ts' Ht. eapply fits_bind; [apply I2; lia|]. intros xs r2 H2. cbn. lia.
  - cbn [p_path]. destruct (acc "." ts) eqn:E; [|cbn; lia]. apply acc_len in E. apply idt_fits. intros w ts' Ht.
    eapply fits_bind; [apply I3; lia|]. intros xs r2 H2. cbn. lia.
Qed.
Lemma params_fits n ts : (length ts + 1 <= n)%nat -> fits (length ts) (p_params n ts).
Proof.
  intros H. unfold p_params. apply req_fits. intros ts' Ht. destruct (acc ")" ts') eqn:E; [apply acc_len in E; cbn; lia|].
  destruct (small_fits n) as (_ & I & _). eapply fits_le; [|apply I; lia]. lia.
Qed.

Ltac one H := eapply fits_bind; [apply H; cbn [length] in *; lia|]; let e := fresh "a" in let r := fresh "r" in let K := fresh in intros e r K; cbn beta iota.
Ltac fits_tac := repeat first
  [ apply req_fits; intros
  | apply idt_fits; intros
  | match goal with a : (_ * _)%type |- _ => destruct a end
  | match goal with |- fits _ (bind (bind _ _) _) => idtac | |- fits _ (bind (match _ with _ => _ end) _) => idtac
      | H : context [p_ex] |- fits _ (bind (M_Stmt.p_ex lang _ _ _) _) => one H
      | H : context [p_core] |- fits _ (bind (M_Stmt.p_core lang _ _) _) => one H
      | H : context [p_args] |- fits _ (bind (M_Stmt.p_args lang _ _) _) => one H
      | H : context [p_list] |- fits _ (bind (M_Stmt.p_list lang _ _) _) => one H
      | H : context [p_its] |- fits _ (bind (M_Stmt.p_its lang _ _) _) => one H
      | H : context [p_fun] |- fits _ (bind (M_Stmt.p_fun lang _ _) _) => one H
      | H : context [p_if] |- fits _ (bind (M_Stmt.p_if lang _ _) _) => one H
      | H : context [p_stmt] |- fits _ (bind (M_Stmt.p_stmt lang _ _ _) _) => one H
      | H : context [p_blk] |- fits _ (bind (M_Stmt.p_blk lang _ _ _) _) => one H
      | H : context [p_vars] |- fits _ (bind (p_vars _ _ _) _) => one H
      | H : context [p_path] |- fits _ (bind (p_path _ _) _) => one H
      | |- fits _ (bind (p_params _ _) _) => one params_fits
      | |- fits _ (bind (p_meth _) _) => one meth_fits
    end
  | match goal with |- fits _ (Ok _) => cbn [fits length] in *; lia | |- fits _ (Err _) => now cbn end
  | match goal with |- fits _ (if ?b then _ else _) => destruct b end
  | match goal with |- fits _ (match ?o with Some _ => _ | None => _ end) => destruct o eqn:? end
  | match goal with H : acc _ _ = Some _ |- _ => apply acc_len in H | H : acc_then _ = Some _ |- _ => apply acc_then_len in H end
  | match goal with H : context [p_loop] |- _ => eapply fits_le; [|apply H; cbn [length] in *; lia]; cbn [length] in *; lia end ].

Lemma stmt_fits n :
  (forall prec ts, (6 * length ts + 2 <= n)%nat -> fits (length ts) (p_ex n prec ts)) /\
  (forall ts, (6 * length ts + 1 <= n)%nat -> fits (length ts) (p_core n ts)) /\
  (forall prec e ts, (6 * length ts + 2 <= n)%nat -> fits (S (length ts)) (p_loop n prec e ts)) /\
  (forall ts, (6 * length ts + 4 <= n)%nat -> fits (length ts) (p_args n ts)) /\
  (forall ts, (6 * length ts + 3 <= n)%nat -> fits (length ts) (p_list n ts)) /\
  (forall ts, (6 * length ts + 3 <= n)%nat -> fits (length ts) (p_its n ts)) /\
  (forall ts, (6 * length ts + 5 <= n)%nat -> fits (length ts) (p_fun n ts)) /\
  (forall ts, (6 * length ts + 5 <= n)%nat -> fits (length ts) (p_if n ts)) /\
  (forall vl ts, (6 * length ts + 3 <= n)%nat -> fits (length ts) (p_stmt n vl ts)) /\
  (forall vl ts, (6 * length ts + 5 <= n)%nat -> fits (S (length ts)) (p_blk n vl ts)).
Proof.
  induction n as [|n (IE & IC & IL & IA & IM & II & IF & Ii & IS & IB)]; [repeat split; intros; lia|].
  destruct (small_fits n) as (J1 & J2 & J3).
  repeat apply conj; intros.
  - rewrite ?eq_ex. fits_tac.
  - rewrite ?eq_core. destruct ts as [|[[ty v|] l] ts]; [easy| |easy]. cbn [length] in *. fits_tac. destruct ty; cbn; try easy; lia.
  - rewrite ?eq_loop. destruct ts as [|[[ty v|] l] ts]; [cbn; lia| |cbn; lia]. cbn [length] in *. fits_tac.
  - rewrite ?eq_args. fits_tac.
  - rewrite ?eq_list. fits_tac.
  - rewrite ?eq_its. destruct (acc "}" ts) eqn:E; [fits_tac|]. apply (fits_bind (length ts)).
    + destruct (acc "[" ts) eqn:E2; [fits_tac|]. destruct ts as [|t [|[[ty w|] l] ts]]; fits_tac.
    + intros mk rest Hr. destruct (acc "}" rest) eqn:E2; [fits_tac|].
      apply (fits_bind (length rest)); [fits_tac|]. intros sep rest2 Hr2. fits_tac.
  - rewrite ?eq_fun. fits_tac.
  - rewrite ?eq_if. one IE. destruct (acc_then r) as [(w, ts1)|] eqn:E; [fits_tac|]. destruct (prev_tok ts r) as [[[ty v|] l]|]; try easy.
    destruct (zeqb_list v (asc ")")); [|easy]. one IB. destruct (if on_line l r0 then _ else _) as [ts2|] eqn:E2.
    + destruct (on_line l r0); [|discriminate E2]. apply acc_len in E2. fits_tac.
    + fits_tac.
  - rewrite ?eq_stmt. destruct ts as [|[[ty v|] l] ts]; [easy| |easy]. cbn [length] in *.
    destruct (zeqb_list v (asc ";")); [fits_tac|]. destruct (zeqb_list v (asc "do")); [fits_tac|]. destruct (zeqb_list v (asc "if")); [fits_tac|].
    destruct (zeqb_list v (asc "while")).
    { one IE. destruct (acc "do" r) eqn:E; [fits_tac|]. destruct (prev_tok ts r) as [[[ty' v'|] l']|]; try easy. fits_tac. }
    destruct (zeqb_list v (asc "repeat")); [fits_tac|].
    destruct (zeqb_list v (asc "for")).
    { destruct (match ts with _ :: _ => _ | [] => _ end); [|fits_tac]. apply idt_fits. intros. apply req_fits. intros. one IE. apply req_fits. intros. one IE.
      apply (fits_bind (S (length r0))); [fits_tac|]. intros step r1 Hs. fits_tac. }
    destruct (zeqb_list v (asc "break")); [fits_tac|]. destruct (zeqb_list v (asc "return")); [fits_tac|]. destruct (zeqb_list v (asc "local")); [fits_tac|].
    destruct (zeqb_list v (asc "goto")); [fits_tac|]. destruct (zeqb_list v (asc "::")); [fits_tac|]. destruct (zeqb_list v (asc "function")); [fits_tac|].
    destruct (zeqb_list v (asc "?")); [fits_tac|]. one IE. cbn [length] in *.
    destruct r as [|[[ty' v'|] l'] r]; [destruct a; try easy; cbn in *; lia| |destruct a; try easy; cbn in *; lia]. cbn [length] in *.
    fits_tac. destruct a; try easy; cbn; lia.
  - rewrite ?eq_blk. destruct ts as [|[t l] ts]; [cbn; lia|]. destruct (beyond vl _); [cbn; lia|]. destruct (match t with Tok _ v => _ | TErr => _ end); [cbn; lia|].
    one IS. one IB. cbn [fits length] in *. lia.
Qed.

Lemma blk_enough n ts b : p_blk n None ts = Ok (b, []) -> parse_prog lang ts = Ok b.
Proof.
  intros E. unfold parse_prog. set (k := (6 * length ts + 6)%nat). destruct (stmt_fits k) as (_ & _ & _ & _ & _ & _ & _ & _ & _ & F). specialize (F None ts ltac:(lia)).
  assert (H : p_blk k None ts = Ok (b, [])); [|now rewrite H].
  destruct (Nat.le_ge_cases n k) as [L|L].
  - destruct (stmt_mono n k L) as (_ & _ & _ & _ & _ & _ & _ & _ & _ & M). destruct (M None ts) as [M1|M1]; congruence.
  - destruct (stmt_mono k n L) as (_ & _ & _ & _ & _ & _ & _ & _ & _ & M). destruct (M None ts) as [M1|M1]; [|congruence]. rewrite M1 in F. now cbn in F.
Qed.
Lemma parse_total ts : parse_prog lang ts <> Err EFuel.
Proof.
  unfold parse_prog. destruct (stmt_fits (6 * length ts + 6)) as (_ & _ & _ & _ & _ & _ & _ & _ & _ & F). specialize (F None ts ltac:(lia)).
  destruct (M_Stmt.p_blk _ _ _ _) as [(b, [|? ?])|e]; cbn; try discriminate. intros [= ->]. now apply F.
Qed.
End Fuel.
