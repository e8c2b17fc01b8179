(** Lemmas on the preserve rules. *)
From Verif Require Import M_Base L_Util M_Rename S_Rename L_Ident.
From Coq Require Import String List.
Import ListNotations.
Open Scope Z_scope.

(** * Patterns *)

Lemma fnmatch_star p s : fnmatch (42 :: p) s =
  fnmatch p s || match s with [] => false | _ :: s' => fnmatch (42 :: p) s' end.
Proof. destruct s; reflexivity. Qed.

Lemma fnmatch_glob p s : fnmatch p s = true <-> glob p s.
Proof.
  revert s. induction p as [|c p IH]; intros s.
  - destruct s; cbn [fnmatch]; split; intros H; try constructor; try easy; inversion H.
  - destruct (Z.eqb_spec c 42) as [->|Nc].
    + split.
      * induction s as [|x s IHs]; rewrite fnmatch_star, orb_true_iff; intros [H|H].
        -- apply (glob_star p []). now apply IH.
        -- discriminate H.
        -- apply (glob_star p []). now apply IH.
        -- specialize (IHs H). inversion IHs as [|? a b G E1 E2| |]; subst; [|congruence].
           now apply (glob_star p (x :: a)).
      * intros H. inversion H as [|? a b G E1 E2| |]; subst; [|congruence]. clear H.
        apply IH in G. induction a as [|x a IHa]; rewrite fnmatch_star, orb_true_iff; [now left|].
        right. exact IHa.
    + cbn [fnmatch]. rewrite (proj2 (Z.eqb_neq c 42) Nc). destruct s as [|x s].
      * split; [easy|]. intros H. inversion H. congruence.
      * rewrite andb_true_iff, orb_true_iff, !Z.eqb_eq, IH. split.
        -- intros ([->| ->] & G); now constructor.
        -- intros H. inversion H; subst; try congruence; tauto.
Qed.

(** * Reading the rules *)

Definition no_dot (p : name) := zmem 46 p = false.

Lemma no_dot_In p : no_dot p <-> ~ In 46 p.
Proof.
  unfold no_dot. rewrite <- not_true_iff_false, zmem_In. tauto.
Qed.

Lemma add_rule_eq rs r : add_rule rs r =
  let '(value, p) := rule_of r in
  {| r_globals := if zmem 46 p then r_globals rs else ie_set (r_globals rs) p value;
     r_members := if zmem 46 p then tm_set (r_members rs) (fst (split_dot p)) (snd (split_dot p)) value
                  else r_members rs;
     r_as_globals := r_as_globals rs ||
       (zmem 61 p && (zeqb_list p (str "*=*.*") || zeqb_list p (str "*.*=*"))) |}.
Proof.
  unfold add_rule.
  assert (E : (match r with
               | c :: r0 => if c =? 33 then (false, r0) else (true, r)
               | [] => (true, r) end) = rule_of r).
  { unfold rule_of. destruct r as [|c r]; [easy|]. destruct (Z.eqb_spec c 33) as [->|N]; [easy|].
    destruct c as [|q|q]; try easy. repeat (destruct q as [q|q|]; try easy). }
  rewrite E. destruct (rule_of r) as (v, p). destruct (zmem 46 p); [|easy].
  now destruct (split_dot p).
Qed.

Lemma split_dot_spec t m : ~ In 46 t -> split_dot (t ++ 46 :: m) = (t, m).
Proof.
  induction t as [|c t IH]; intros N; [easy|]. cbn [app split_dot].
  destruct (Z.eqb_spec c 46) as [->|]; [destruct N; now left|].
  rewrite IH; [easy|]. intros I. apply N. now right.
Qed.

Lemma split_dot_app p : In 46 p -> p = fst (split_dot p) ++ 46 :: snd (split_dot p) /\ ~ In 46 (fst (split_dot p)).
Proof.
  induction p as [|c p IH]; [easy|]. cbn [split_dot]. destruct (Z.eqb_spec c 46) as [->|N]; [easy|].
  intros [->|I]; [easy|]. destruct (split_dot p) as (a, b) eqn:E. cbn [fst snd] in *.
  destruct (IH I) as (-> & H). split; [easy|]. intros [->|J]; easy.
Qed.

(** the rules one by one, from the last *)
Lemma read_snoc b m rs r : read_rules b m (rs ++ [r]) = add_rule (read_rules b m rs) r.
Proof. unfold read_rules. now rewrite fold_left_app. Qed.

Lemma last_snoc rs r (ok : name -> Prop) value : last_says (rs ++ [r]) ok value <->
  (fst (rule_of r) = value /\ ok (snd (rule_of r))) \/ (~ ok (snd (rule_of r)) /\ last_says rs ok value).
Proof.
  split.
  - intros (a & r' & b & p & E & R & O & H). destruct b as [|x b] using rev_ind.
    + apply app_inj_tail in E. destruct E as (-> & ->). left. now rewrite R.
    + clear IHb. rewrite app_comm_cons, app_assoc in E. apply app_inj_tail in E. destruct E as (-> & ->).
      right. split.
      * destruct (rule_of x) as (v', p') eqn:Q. apply (H x v' p'); [apply in_or_app; right; now left|easy].
      * exists a, r', b, p. split; [easy|]. split; [easy|]. split; [easy|].
        intros r0 v0 p0 I. apply H. apply in_or_app. now left.
  - intros [(V & O)|(N & a & r' & b & p & -> & R & O & H)].
    + exists rs, r, [], (snd (rule_of r)). split; [easy|]. split; [|easy].
      rewrite <- V. now destruct (rule_of r).
    + exists a, r', (b ++ [r]), p. split; [now rewrite <- app_assoc|]. split; [easy|]. split; [easy|].
      intros r0 v0 p0 I. apply in_app_or in I. destruct I as [I|[<-|[]]]; [now apply H|].
      intros Q. now rewrite Q in N.
Qed.

Lemma none_snoc rs r (ok : name -> Prop) : none_says (rs ++ [r]) ok <->
  ~ ok (snd (rule_of r)) /\ none_says rs ok.
Proof.
  unfold none_says. split.
  - intros H. split; [destruct (rule_of r) as (v, p) eqn:E; apply (H r v p); [apply in_or_app; right; now left|easy]|].
    intros r' v p I. apply H. apply in_or_app. now left.
  - intros (N & H) r' v p I. apply in_app_or in I. destruct I as [I|[<-|[]]]; [now apply H|].
    intros E. now rewrite E in N.
Qed.

Lemma last_nil ok value : ~ last_says [] ok value.
Proof. intros (a & r & b & p & E & _). destruct a; discriminate E. Qed.

Lemma none_nil ok : none_says [] ok.
Proof. intros r v p []. Qed.

(** the value the rules give to an exact pattern *)
Definition says (rs : list name) (p : name) : option bool :=
  fold_left (fun acc r => if zeqb_list p (snd (rule_of r)) then Some (fst (rule_of r)) else acc) rs None.

Lemma says_snoc rs r p : says (rs ++ [r]) p =
  if zeqb_list p (snd (rule_of r)) then Some (fst (rule_of r)) else says rs p.
Proof. unfold says. now rewrite fold_left_app. Qed.

Lemma says_last rs p v : says rs p = Some v <-> last_says rs (eq p) v.
Proof.
  induction rs as [|r rs IH] using rev_ind.
  - split; [easy|]. intros H. now apply last_nil in H.
  - rewrite says_snoc, last_snoc. destruct (zeqb_list p (snd (rule_of r))) eqn:E.
    + apply zeqb_list_true in E. split; [intros [= <-]; now left|]. intros [(<- & _)|(N & _)]; easy.
    + apply zeqb_list_false in E. rewrite IH. tauto.
Qed.

Lemma says_none rs p : says rs p = None <-> none_says rs (eq p).
Proof.
  induction rs as [|r rs IH] using rev_ind.
  - split; [|easy]. intros _. apply none_nil.
  - rewrite says_snoc, none_snoc. destruct (zeqb_list p (snd (rule_of r))) eqn:E.
    + apply zeqb_list_true in E. split; [easy|tauto].
    + apply zeqb_list_false in E. rewrite IH. tauto.
Qed.

Lemma zmem_false c l : zmem c l = false <-> ~ In c l.
Proof. rewrite <- not_true_iff_false, zmem_In. tauto. Qed.

(** ** Globals *)

Section Globals.
Context (builtins members : list name).
Notation read rs := (read_rules builtins members rs).

Lemma init_get n : dict_get (map (fun k => (k, true)) builtins) n =
  if mem n builtins then Some true else None.
Proof.
  induction builtins as [|k l IH]; [easy|]. cbn [map dict_get mem existsb].
  fold (mem n l). rewrite IH. now destruct (zeqb_list n k).
Qed.

Lemma globals_dict rs n : ~ In 42 n -> ~ In 46 n ->
  dict_get (i_dict (r_globals (read rs))) n =
  opt_or (says rs n) (if mem n builtins then Some true else None).
Proof.
  intros Ns Nd. induction rs as [|r rs IH] using rev_ind.
  - cbn. apply init_get.
  - rewrite read_snoc, add_rule_eq, says_snoc. destruct (rule_of r) as (v, p). cbn [fst snd r_globals].
    destruct (zeqb_list n p) eqn:E.
    + apply zeqb_list_true in E. subst p. rewrite (proj2 (zmem_false 46 n) Nd). unfold ie_set.
      rewrite (proj2 (zmem_false 42 n) Ns). cbn [negb].
      destruct (zeqb_list n [42]) eqn:Q.
      { apply zeqb_list_true in Q. subst n. destruct Ns. now left. }
      cbn [i_dict dict_get]. now rewrite zeqb_list_refl.
    + destruct (zmem 46 p); [exact IH|]. unfold ie_set. destruct (zeqb_list p [42]); [exact IH|].
      destruct (negb (zmem 42 p)); [|exact IH]. cbn [i_dict dict_get]. now rewrite E.
Qed.

Lemma globals_default rs : i_default (r_globals (read rs)) = says rs [42].
Proof.
  induction rs as [|r rs IH] using rev_ind; [easy|].
  rewrite read_snoc, add_rule_eq, says_snoc. destruct (rule_of r) as (v, p). cbn [fst snd r_globals].
  destruct (zeqb_list [42] p) eqn:E.
  - apply zeqb_list_true in E. now subst p.
  - destruct (zmem 46 p); [exact IH|]. unfold ie_set. destruct (zeqb_list p [42]) eqn:Q.
    + apply zeqb_list_true in Q. now subst p.
    + destruct (negb (zmem 42 p)); exact IH.
Qed.

Lemma globals_regexs rs p v : In (p, v) (i_regexs (r_globals (read rs))) <->
  global_rule rs v p /\ wildcard p.
Proof.
  induction rs as [|r rs IH] using rev_ind.
  - cbn. split; [easy|]. now intros ((r & [] & _) & _).
  - rewrite read_snoc, add_rule_eq.
    assert (G : global_rule (rs ++ [r]) v p <-> global_rule rs v p \/ (rule_of r = (v, p) /\ ~ In 46 p)).
    { unfold global_rule. split.
      - intros (r' & I & H). apply in_app_or in I. destruct I as [I|[<-|[]]]; [left; now exists r'|now right].
      - intros [(r' & I & H)|H]; [exists r'; split; [apply in_or_app; now left|easy]|].
        exists r. split; [apply in_or_app; right; now left|easy]. }
    rewrite G. clear G. destruct (rule_of r) as (v', p') eqn:R. cbn [r_globals].
    destruct (zmem 46 p') eqn:D.
    + apply zmem_In in D. rewrite IH. split; [tauto|]. intros ([H|([= -> ->] & N)] & W); tauto.
    + apply zmem_false in D. unfold ie_set. destruct (zeqb_list p' [42]) eqn:S.
      * apply zeqb_list_true in S. cbn [i_regexs]. rewrite IH. split; [tauto|].
        intros ([H|([= -> ->] & N)] & W); [tauto|]. destruct W as (_ & W). easy.
      * apply zeqb_list_false in S. destruct (zmem 42 p') eqn:M; cbn [negb i_regexs].
        -- apply zmem_In in M. rewrite in_app_iff, IH. cbn [In]. split.
           ++ intros [H|[[= -> ->]|[]]]; [tauto|]. split; [now right|easy].
           ++ intros ([H|([= -> ->] & N)] & W); [tauto|]. right. now left.
        -- apply zmem_false in M. rewrite IH. split; [tauto|].
           intros ([H|([= -> ->] & N)] & W); [tauto|]. destruct W as (W & _). easy.
Qed.

Lemma ie_loop_spec rs n value : ie_loop rs n value = true <->
  (forall p, In (p, false) rs -> fnmatch p n = false) /\
  (value = Some true \/ exists p, In (p, true) rs /\ fnmatch p n = true).
Proof.
  revert value. induction rs as [|(p, v) rs IH]; intros value; cbn [ie_loop].
  - split.
    + intros H. split; [easy|]. left. destruct value; congruence.
    + intros (_ & [->|(p & [] & _)]). easy.
  - destruct (fnmatch p n) eqn:M.
    + destruct v.
      * rewrite IH. split.
        -- intros (A & _). split; [intros q [[=]|I]; now apply A|]. right. exists p. split; [now left|easy].
        -- intros (A & _). split; [intros q I; apply A; now right|]. now left.
      * split; [easy|]. intros (A & _). specialize (A p (or_introl eq_refl)). congruence.
    + rewrite IH. split.
      * intros (A & B). split; [intros q [[= -> ->]|I]; [easy|now apply A]|].
        destruct B as [B|(q & I & Q)]; [now left|]. right. exists q. split; [now right|easy].
      * intros (A & B). split; [intros q I; apply A; now right|].
        destruct B as [B|(q & [[= -> ->]|I] & Q)]; [now left|congruence|]. right. now exists q.
Qed.

Lemma named_global_value rs n v : ~ In 42 n -> ~ In 46 n ->
  named_global builtins rs n v <->
  opt_or (dict_get (i_dict (r_globals (read rs))) n) (i_default (r_globals (read rs))) = Some v.
Proof.
  intros Ns Nd. rewrite globals_dict, globals_default by easy. unfold named_global.
  rewrite <- says_last, <- says_none, <- says_last.
  destruct (says rs n) as [w|]; cbn [opt_or].
  - split; [intros [[= <-]|(N & _)]; easy|]. intros [= <-]. now left.
  - destruct (mem n builtins) eqn:M; cbn [opt_or].
    + apply mem_In in M. split; [intros [N|(_ & [(_ & ->)|(N & _)])]; easy|].
      intros [= <-]. right. split; [easy|]. now left.
    + assert (Nb : ~ In n builtins) by (intros I; apply mem_In in I; congruence).
      split; [intros [N|(_ & [(N & _)|(_ & H)])]; easy|]. intros H. right. split; [easy|]. now right.
Qed.

Lemma ie_contains_spec rs n : ~ In 42 n -> ~ In 46 n ->
  ie_contains (r_globals (read rs)) n = true <-> preserved_global builtins rs n.
Proof.
  intros Ns Nd. unfold preserved_global. rewrite !(named_global_value rs n) by easy.
  unfold ie_contains. set (value := opt_or _ _).
  assert (X : ie_loop (i_regexs (r_globals (read rs))) n value = true <->
    (forall p, global_rule rs false p -> wildcard p -> ~ glob p n) /\
    (value = Some true \/ exists p, global_rule rs true p /\ wildcard p /\ glob p n)).
  { rewrite ie_loop_spec. split.
    - intros (A & B). split.
      + intros p G W M. apply fnmatch_glob in M. rewrite A in M; [easy|]. now apply globals_regexs.
      + destruct B as [B|(p & I & M)]; [now left|]. right. exists p. apply globals_regexs in I.
        apply fnmatch_glob in M. tauto.
    - intros (A & B). split.
      + intros p I. apply globals_regexs in I. destruct (fnmatch p n) eqn:M; [|easy].
        apply fnmatch_glob in M. destruct (A p); tauto.
      + destruct B as [B|(p & G & W & M)]; [now left|]. right. exists p.
        rewrite globals_regexs, fnmatch_glob. tauto. }
  destruct value as [[]|]; rewrite ?X; [|split; [easy|tauto]|];
    (split; [intros H; split; [discriminate|exact H]|intros (_ & H); exact H]).
Qed.
End Globals.

(** ** Members *)

Section Members.
Context (builtins members : list name).
Notation read rs := (read_rules builtins members rs).

Lemma minit_get n : dict_get (map (fun k => (k, true)) members) n =
  if mem n members then Some true else None.
Proof. apply init_get. Qed.

(** what adding a rule does to each of the tables *)
Lemma dotted_eq t m p : ~ In 46 t -> dotted t m = p <->
  (zmem 46 p = true /\ fst (split_dot p) = t /\ snd (split_dot p) = m).
Proof.
  intros Nt. split.
  - intros <-. unfold dotted. rewrite split_dot_spec by easy. rewrite zmem_In. split; [|easy].
    apply in_or_app. right. now left.
  - intros (D & <- & <-). apply zmem_In in D. unfold dotted. now rewrite <- (proj1 (split_dot_app p D)).
Qed.

Lemma dotted_eqb t m p : ~ In 46 t -> zeqb_list (dotted t m) p =
  zmem 46 p && zeqb_list t (fst (split_dot p)) && zeqb_list m (snd (split_dot p)).
Proof.
  intros Nt. apply eq_true_iff_eq. rewrite !andb_true_iff, !zeqb_list_true, dotted_eq by easy.
  split; [intros (? & <- & <-); easy|intros ((? & ->) & ->); easy].
Qed.

Lemma zeqb_sym a b : zeqb_list a b = zeqb_list b a.
Proof. apply eq_true_iff_eq. rewrite !zeqb_list_true. split; congruence. Qed.

Lemma star_no_dot : ~ In 46 star.
Proof. now intros [H|[]]. Qed.

Lemma not_star t : ~ In 42 t -> zeqb_list t [42] = false.
Proof. intros N. apply zeqb_list_false. intros ->. apply N. now left. Qed.

(** a name without "*" equal to another has none either *)
Lemma members_pair rs t m : ~ In 42 t -> ~ In 46 t -> ~ In 42 m ->
  pair_get (t_pair (r_members (read rs))) (t, m) = says rs (dotted t m).
Proof.
  intros St Dt Sm. induction rs as [|r rs IH] using rev_ind; [easy|].
  rewrite read_snoc, add_rule_eq, says_snoc. destruct (rule_of r) as (v, p). cbn [fst snd r_members].
  rewrite dotted_eqb by easy. destruct (zmem 46 p); [|exact IH]. cbn [andb].
  destruct (split_dot p) as (pt, pm). cbn [fst snd]. unfold tm_set.
  destruct (zeqb_list t pt && zeqb_list m pm) eqn:E.
  - apply andb_true_iff in E. rewrite !zeqb_list_true in E. destruct E as (<- & <-).
    rewrite !not_star by easy. rewrite (proj2 (zmem_false 42 t) St), (proj2 (zmem_false 42 m) Sm). cbn [negb andb].
    cbn [t_pair pair_get]. unfold eq_pair. cbn [fst snd]. now rewrite !zeqb_list_refl.
  - destruct (zeqb_list pt [42] && zeqb_list pm [42]); [exact IH|].
    destruct (negb (zmem 42 pt) && zeqb_list pm [42]); [exact IH|].
    destruct (zeqb_list pt [42] && negb (zmem 42 pm)); [exact IH|].
    destruct (negb (zmem 42 pt) && negb (zmem 42 pm)); [|exact IH].
    cbn [t_pair pair_get]. unfold eq_pair. cbn [fst snd]. now rewrite E.
Qed.

Lemma members_table rs t : ~ In 42 t -> ~ In 46 t ->
  dict_get (t_table (r_members (read rs))) t = says rs (dotted t star).
Proof.
  intros St Dt. induction rs as [|r rs IH] using rev_ind; [easy|].
  rewrite read_snoc, add_rule_eq, says_snoc. destruct (rule_of r) as (v, p). cbn [fst snd r_members].
  rewrite dotted_eqb by easy. destruct (zmem 46 p); [|exact IH]. cbn [andb].
  destruct (split_dot p) as (pt, pm). cbn [fst snd]. unfold tm_set, star in *.
  rewrite (zeqb_sym [42] pm).
  destruct (zeqb_list t pt) eqn:E.
  - apply zeqb_list_true in E. subst pt. rewrite not_star by easy.
    rewrite (proj2 (zmem_false 42 t) St). cbn [negb andb].
    destruct (zeqb_list pm [42]).
    + cbn [t_table dict_get]. now rewrite zeqb_list_refl.
    + destruct (negb (zmem 42 pm)); exact IH.
  - cbn [andb]. destruct (zeqb_list pt [42] && zeqb_list pm [42]); [exact IH|].
    destruct (negb (zmem 42 pt) && zeqb_list pm [42]); [cbn [t_table dict_get]; now rewrite E|].
    destruct (zeqb_list pt [42] && negb (zmem 42 pm)); [exact IH|].
    destruct (negb (zmem 42 pt) && negb (zmem 42 pm)); exact IH.
Qed.

Lemma members_member rs m : ~ In 42 m ->
  dict_get (t_member (r_members (read rs))) m =
  opt_or (says rs (dotted star m)) (if mem m members then Some true else None).
Proof.
  intros Sm. induction rs as [|r rs IH] using rev_ind; [apply minit_get|].
  rewrite read_snoc, add_rule_eq, says_snoc. destruct (rule_of r) as (v, p). cbn [fst snd r_members].
  rewrite (dotted_eqb star m p star_no_dot). destruct (zmem 46 p); [|exact IH]. cbn [andb].
  destruct (split_dot p) as (pt, pm). cbn [fst snd]. unfold tm_set, star in *.
  rewrite (zeqb_sym [42] pt).
  destruct (zeqb_list m pm) eqn:E.
  - apply zeqb_list_true in E. subst pm. rewrite (not_star m Sm).
    rewrite (proj2 (zmem_false 42 m) Sm). cbn [negb]. rewrite !andb_false_r, !andb_true_r.
    destruct (zeqb_list pt [42]).
    + cbn [t_member dict_get]. now rewrite zeqb_list_refl.
    + destruct (negb (zmem 42 pt)); exact IH.
  - rewrite !andb_false_r. destruct (zeqb_list pt [42] && zeqb_list pm [42]); [exact IH|].
    destruct (negb (zmem 42 pt) && zeqb_list pm [42]); [exact IH|].
    destruct (zeqb_list pt [42] && negb (zmem 42 pm)); [cbn [t_member dict_get]; now rewrite E|].
    destruct (negb (zmem 42 pt) && negb (zmem 42 pm)); exact IH.
Qed.

Lemma members_default rs : t_default (r_members (read rs)) = says rs (dotted star star).
Proof.
  induction rs as [|r rs IH] using rev_ind; [easy|].
  rewrite read_snoc, add_rule_eq, says_snoc. destruct (rule_of r) as (v, p). cbn [fst snd r_members].
  rewrite (dotted_eqb star star p star_no_dot). destruct (zmem 46 p); [|exact IH]. cbn [andb].
  destruct (split_dot p) as (pt, pm). cbn [fst snd]. unfold tm_set, star in *.
  rewrite (zeqb_sym [42] pt), (zeqb_sym [42] pm).
  destruct (zeqb_list pt [42] && zeqb_list pm [42]); [easy|].
  destruct (negb (zmem 42 pt) && zeqb_list pm [42]); [exact IH|].
  destruct (zeqb_list pt [42] && negb (zmem 42 pm)); [exact IH|].
  destruct (negb (zmem 42 pt) && negb (zmem 42 pm)); exact IH.
Qed.

Lemma wildcard_pair_bool pt pm : wildcard_pair pt pm <->
  (zeqb_list pt [42] && zeqb_list pm [42] = false /\ negb (zmem 42 pt) && zeqb_list pm [42] = false /\
   zeqb_list pt [42] && negb (zmem 42 pm) = false /\ negb (zmem 42 pt) && negb (zmem 42 pm) = false).
Proof.
  unfold wildcard_pair, star. rewrite <- !(zmem_false 42), <- !zeqb_list_true.
  destruct (zeqb_list pt [42]), (zeqb_list pm [42]), (zmem 42 pt), (zmem 42 pm); cbn [negb andb]; intuition congruence.
Qed.

Lemma member_rule_snoc rs r v pt pm : member_rule (rs ++ [r]) v pt pm <->
  member_rule rs v pt pm \/
  (fst (rule_of r) = v /\ zmem 46 (snd (rule_of r)) = true /\ split_dot (snd (rule_of r)) = (pt, pm)).
Proof.
  unfold member_rule. split.
  - intros (r' & I & R & N). apply in_app_or in I. destruct I as [I|[<-|[]]]; [left; now exists r'|].
    right. rewrite R. cbn [fst snd]. rewrite split_dot_spec, zmem_In by easy. split; [easy|]. split; [|easy].
    apply in_or_app. right. now left.
  - intros [(r' & I & R)|(V & D & E)].
    + exists r'. split; [apply in_or_app; now left|easy].
    + exists r. split; [apply in_or_app; right; now left|].
      apply zmem_In, split_dot_app in D. rewrite E in D. cbn [fst snd] in D.
      split; [|tauto]. rewrite <- V, <- (proj1 D). now destruct (rule_of r).
Qed.

Lemma members_regexs rs pt pm v : In ((pt, pm), v) (t_regexs (r_members (read rs))) <->
  member_rule rs v pt pm /\ wildcard_pair pt pm.
Proof.
  induction rs as [|r rs IH] using rev_ind.
  - cbn. split; [easy|]. now intros ((r & [] & _) & _).
  - rewrite read_snoc, add_rule_eq, member_rule_snoc.
    destruct (rule_of r) as (v', p') eqn:R. cbn [fst snd r_members].
    destruct (zmem 46 p') eqn:D.
    2:{ rewrite IH. split; [tauto|]. intros ([H|(_ & X & _)] & W); [tauto|discriminate X]. }
    destruct (split_dot p') as (qt, qm). cbn [fst snd]. unfold tm_set.
    destruct (zeqb_list qt [42] && zeqb_list qm [42]) eqn:A1.
    { cbn [t_regexs]. rewrite IH. split; [tauto|]. intros ([H|(_ & _ & [= -> ->])] & W); [tauto|].
      apply wildcard_pair_bool in W. destruct W as (X & _). congruence. }
    destruct (negb (zmem 42 qt) && zeqb_list qm [42]) eqn:A2.
    { cbn [t_regexs]. rewrite IH. split; [tauto|]. intros ([H|(_ & _ & [= -> ->])] & W); [tauto|].
      apply wildcard_pair_bool in W. destruct W as (_ & X & _). congruence. }
    destruct (zeqb_list qt [42] && negb (zmem 42 qm)) eqn:A3.
    { cbn [t_regexs]. rewrite IH. split; [tauto|]. intros ([H|(_ & _ & [= -> ->])] & W); [tauto|].
      apply wildcard_pair_bool in W. destruct W as (_ & _ & X & _). congruence. }
    destruct (negb (zmem 42 qt) && negb (zmem 42 qm)) eqn:A4.
    { cbn [t_regexs]. rewrite IH. split; [tauto|]. intros ([H|(_ & _ & [= -> ->])] & W); [tauto|].
      apply wildcard_pair_bool in W. destruct W as (_ & _ & _ & X). congruence. }
    cbn [t_regexs]. rewrite in_app_iff, IH. cbn [In]. split.
    + intros [H|[[= -> -> ->]|[]]]; [tauto|]. split; [now right|]. now apply wildcard_pair_bool.
    + intros ([H|(-> & _ & [= -> ->])] & W); [tauto|]. right. now left.
Qed.

Lemma tm_loop_spec rs t m value : tm_loop rs t m value = true <->
  (forall pt pm, In ((pt, pm), false) rs -> fnmatch pt t && fnmatch pm m = false) /\
  (value = Some true \/ exists pt pm, In ((pt, pm), true) rs /\ fnmatch pt t && fnmatch pm m = true).
Proof.
  revert value. induction rs as [|((pt, pm), v) rs IH]; intros value; cbn [tm_loop].
  - split.
    + intros H. split; [easy|]. left. destruct value; congruence.
    + intros (_ & [->|(p & q & [] & _)]). easy.
  - destruct (fnmatch pt t && fnmatch pm m) eqn:M.
    + destruct v.
      * rewrite IH. split.
        -- intros (A & _). split; [intros q q' [[=]|I]; now apply A|]. right. exists pt, pm. split; [now left|easy].
        -- intros (A & _). split; [intros q q' I; apply A; now right|]. now left.
      * split; [easy|]. intros (A & _). specialize (A pt pm (or_introl eq_refl)). congruence.
    + rewrite IH. split.
      * intros (A & B). split; [intros q q' [[= -> -> ->]|I]; [easy|now apply A]|].
        destruct B as [B|(q & q' & I & Q)]; [now left|]. right. exists q, q'. split; [now right|easy].
      * intros (A & B). split; [intros q q' I; apply A; now right|].
        destruct B as [B|(q & q' & [[= -> -> ->]|I] & Q)]; [now left|congruence|]. right. now exists q, q'.
Qed.

Lemma named_member_value rs t m v : ~ In 42 t -> ~ In 46 t -> ~ In 42 m ->
  named_member members rs t m v <->
  opt_or (pair_get (t_pair (r_members (read rs))) (t, m))
    (opt_or (dict_get (t_table (r_members (read rs))) t)
      (opt_or (dict_get (t_member (r_members (read rs))) m) (t_default (r_members (read rs))))) = Some v.
Proof.
  intros St Dt Sm. rewrite members_pair, members_table, members_member, members_default by easy.
  unfold named_member. rewrite <- !says_last, <- !says_none.
  destruct (says rs (dotted t m)) as [w|]; cbn [opt_or].
  { split; [intros [[= <-]|(N & _)]; easy|]. intros [= <-]. now left. }
  destruct (says rs (dotted t star)) as [w|]; cbn [opt_or].
  { split; [intros [[=]|(_ & [[= <-]|(N & _)])]; easy|]. intros [= <-]. right. split; [easy|now left]. }
  destruct (says rs (dotted star m)) as [w|]; cbn [opt_or].
  { split; [intros [[=]|(_ & [[=]|(_ & [[= <-]|(N & _)])])]; easy|]. intros [= <-].
    right. split; [easy|]. right. split; [easy|now left]. }
  destruct (mem m members) eqn:M; cbn [opt_or].
  - apply mem_In in M. split.
    + intros [[=]|(_ & [[=]|(_ & [[=]|(_ & [(_ & ->)|(N & _)])])])]; easy.
    + intros [= <-]. right. split; [easy|]. right. split; [easy|]. right. split; [easy|]. now left.
  - assert (Nb : ~ In m members) by (intros I; apply mem_In in I; congruence). split.
    + intros [[=]|(_ & [[=]|(_ & [[=]|(_ & [(N & _)|(_ & H)])])])]; easy.
    + intros H. right. split; [easy|]. right. split; [easy|]. right. split; [easy|]. now right.
Qed.

Lemma tm_contains_spec rs t m : ~ In 42 t -> ~ In 46 t -> ~ In 42 m ->
  tm_contains (r_members (read rs)) t m = true <-> preserved_member members rs t m.
Proof.
  intros St Dt Sm. unfold preserved_member. rewrite !(named_member_value rs t m) by easy.
  unfold tm_contains. set (value := opt_or _ _).
  assert (X : tm_loop (t_regexs (r_members (read rs))) t m value = true <->
    (forall pt pm, member_rule rs false pt pm -> wildcard_pair pt pm -> ~ (glob pt t /\ glob pm m)) /\
    (value = Some true \/ exists pt pm, member_rule rs true pt pm /\ wildcard_pair pt pm /\ glob pt t /\ glob pm m)).
  { rewrite tm_loop_spec. split.
    - intros (A & B). split.
      + intros pt pm G W (M1 & M2). apply fnmatch_glob in M1, M2.
        assert (Q : fnmatch pt t && fnmatch pm m = false) by (apply A; now apply members_regexs).
        rewrite M1, M2 in Q. discriminate Q.
      + destruct B as [B|(pt & pm & I & M)]; [now left|]. right. exists pt, pm. apply members_regexs in I.
        apply andb_true_iff in M. rewrite !fnmatch_glob in M. tauto.
    - intros (A & B). split.
      + intros pt pm I. apply members_regexs in I. destruct (fnmatch pt t && fnmatch pm m) eqn:M; [|easy].
        apply andb_true_iff in M. rewrite !fnmatch_glob in M. destruct (A pt pm); tauto.
      + destruct B as [B|(pt & pm & G & W & M)]; [now left|]. right. exists pt, pm.
        rewrite members_regexs, andb_true_iff, !fnmatch_glob. tauto. }
  destruct value as [[]|]; rewrite ?X; [|split; [easy|tauto]|];
    (split; [intros H; split; [discriminate|exact H]|intros (_ & H); exact H]).
Qed.

Lemma as_globals_spec rs : r_as_globals (read rs) = true <->
  exists r v, In r rs /\ (rule_of r = (v, str "*=*.*") \/ rule_of r = (v, str "*.*=*")).
Proof.
  induction rs as [|r rs IH] using rev_ind.
  - cbn. split; [easy|]. now intros (r & v & [] & _).
  - rewrite read_snoc, add_rule_eq. destruct (rule_of r) as (v, p) eqn:R. cbn [r_as_globals].
    rewrite orb_true_iff, IH, andb_true_iff, orb_true_iff, !zeqb_list_true. split.
    + intros [(r' & v' & I & H)|(_ & H)].
      * exists r', v'. split; [apply in_or_app; now left|easy].
      * exists r, v. split; [apply in_or_app; right; now left|]. rewrite R.
        destruct H as [-> | ->]; [now left|now right].
    + intros (r' & v' & I & H). apply in_app_or in I. destruct I as [I|[<-|[]]].
      * left. now exists r', v'.
      * right. rewrite R in H. destruct H as [[= <- ->]|[= <- ->]]; (split; [easy|]); [now left|now right].
Qed.
End Members.
