(** Minifying an expression keeps it in the grammar and keeps its meaning. *)
From Coq Require Import String List ZArith Lia Bool.
From Verif Require Import M_Base L_Util M_Fold M_Num S_Num L_Num L_NumFmt M_Token M_Expr S_Expr L_Expr.
Import ListNotations.
Open Scope Z_scope.

Section Strip.
Context (lang : language) (version : Z) (focus_tokens : bool).
Context (negative : list Z -> bool) (num : bool -> list Z -> numform) (str : list Z -> list Z).
Context (rf : list tok -> res (list tok * list tok)) (m : meaning).
Context (Ho : same_operators m lang version) (Hn : same_numbers m lang num) (Hs : same_strings m str).
Notation grammar := (grammar lang rf).
Notation grammar_args := (grammar_args lang rf).
Notation grammar_items := (grammar_items lang rf).
Notation strip := (strip lang version focus_tokens negative num str).
Notation strip_args := (strip_args lang version focus_tokens negative num str).
Notation strip_items := (strip_items lang version focus_tokens negative num str).
Notation respell := (respell lang version).

Ltac sym := first [reflexivity | (apply existsb_in; reflexivity)].
Lemma respell_cases v : respell v = v \/ (v = asc "!=" /\ respell v = asc "~=") \/ (v = asc "^^" /\ respell v = asc "~" /\ 37 <= version) \/
  (v = asc "//" /\ respell v = asc "\" /\ lang = Picotron).
Proof.
  unfold M_Expr.respell. destruct (zeqb_list v (asc "!=")) eqn:E1; [apply zeqb_sound in E1; tauto|].
  destruct (zeqb_list v (asc "^^")) eqn:E2; [apply zeqb_sound in E2; destruct (37 <=? version) eqn:Ev; cbn [andb]; [right; right; left; repeat split; auto; lia|]|cbn [andb]].
  - destruct (zeqb_list v (asc "//")) eqn:E3; [apply zeqb_sound in E3; subst; discriminate E3|]. now left.
  - destruct (zeqb_list v (asc "//")) eqn:E3; [|now left]. apply zeqb_sound in E3. destruct lang; cbn [is_pico8 negb andb]; [now left|tauto].
Qed.
Lemma respell_unary v : unary lang v -> respell v = v.
Proof.
  intros U. destruct (respell_cases v) as [E|[(-> & _)|[(-> & _)|(-> & _)]]]; [easy| | |]; exfalso.
  all: destruct U as [I|(E & _)]; [cbn [map In] in I; repeat (destruct I as [I|I]; [vm_compute in I; discriminate I|]); easy|vm_compute in E; discriminate E].
Qed.
Lemma respell_level v k : level_of v k -> level_of (respell v) k.
Proof.
  rewrite !level_prec. destruct (respell_cases v) as [->|[(-> & ->)|[(-> & -> & _)|(-> & -> & _)]]]; [easy| | |]; intros E; rewrite <- E; reflexivity.
Qed.
Lemma respell_right v : right_binary (respell v) = right_binary v.
Proof. destruct (respell_cases v) as [->|[(-> & ->)|[(-> & -> & _)|(-> & -> & _)]]]; reflexivity. Qed.
Lemma respell_lang v : in_lang lang v -> in_lang lang (respell v).
Proof. rewrite <- !lang_spec. destruct (respell_cases v) as [->|[(-> & ->)|[(-> & -> & _)|(-> & -> & _)]]]; [easy| | |]; reflexivity. Qed.
Lemma respell_mean v : m_binary m (respell v) = m_binary m v.
Proof.
  destruct Ho as (H1 & H2 & H3). destruct (respell_cases v) as [->|[(-> & ->)|[(-> & -> & Hv)|(-> & -> & Hl)]]]; auto; [now rewrite H2|now rewrite H3].
Qed.

(** A group that is removed leaves something that can stand in its place. *)
Lemma remove_stands c inner : grammar inner -> (forall op, c = CLeft op \/ c = CRight op -> exists k, level_of op k) ->
  remove focus_tokens negative c inner = true -> stands c inner.
Proof.
  intros G Op E. unfold remove in E.
  assert (P : forall p, get_precedence inner = Some p -> exists n, p = Z.of_nat n /\ forall k, (k <= n)%nat -> tight inner k).
  { intros p Ep. destruct inner; try easy; cbn [get_precedence] in Ep.
    - exists 11%nat. injection Ep as <-. split; [reflexivity|auto].
    - destruct (prec_nat _ _ Ep) as (n & -> & Ln). exists n. split; [easy|]. intros k Hk. exists n. auto. }
  assert (NP : get_precedence inner = None -> forall k, tight inner k).
  { intros Ep k. destruct inner; try exact I; [discriminate Ep|]. destruct G as (_ & _ & _ & n & Ln & _). apply level_prec in Ln. cbn [get_precedence] in Ep. congruence. }
  destruct c; try exact I.
  - cbn [ctx_prec stands] in *. destruct (get_precedence inner) as [p|] eqn:Ep; [|now apply NP]. destruct (P _ eq_refl) as (n & -> & T). apply T.
    unfold k_unary_ops_prec in E. lia.
  - cbn [stands]. destruct (Op op (or_introl eq_refl)) as (k & Lk). pose proof (proj1 (level_prec _ _) Lk) as Ek. cbn [ctx_prec] in E. rewrite Ek in E. exists k. split; [easy|].
    destruct (get_precedence inner) as [p|] eqn:Ep; [|destruct (right_binary op); now apply NP]. destruct (P _ eq_refl) as (n & -> & T).
    pose proof (level_range _ _ Lk) as R. unfold k_unary_ops_prec in E. destruct (right_binary op); cbn [negb] in E; apply T; lia.
  - cbn [stands]. destruct (Op op (or_intror eq_refl)) as (k & Lk). pose proof (proj1 (level_prec _ _) Lk) as Ek. cbn [ctx_prec] in E. rewrite Ek in E. exists k. split; [easy|]. left.
    destruct (get_precedence inner) as [p|] eqn:Ep; [|destruct (right_binary op); now apply NP]. destruct (P _ eq_refl) as (n & -> & T).
    pose proof (level_range _ _ Lk) as R. unfold k_unary_ops_prec in E. destruct (right_binary op); cbn [negb] in E; apply T; lia.
  - cbn [ctx_prec] in E. destruct inner; try easy; destruct (binary_prec op); easy.
Qed.
Lemma stands_op c e : stands c e -> forall op, c = CLeft op \/ c = CRight op -> exists k, level_of op k.
Proof. intros St op [->| ->]; destruct St as (k & Lk & _); eauto. Qed.
Lemma callable_stands c e : callable e -> (forall op, c = CLeft op \/ c = CRight op -> exists k, level_of op k) -> stands c e.
Proof.
  intros Ca Op. assert (T : forall k, tight e k) by (intros k; destruct e; easy). destruct c; try exact I; cbn [stands]; auto.
  - destruct (Op op (or_introl eq_refl)) as (k & Lk). exists k. split; [easy|]. destruct (right_binary op); apply T.
  - destruct (Op op (or_intror eq_refl)) as (k & Lk). exists k. split; [easy|]. left. destruct (right_binary op); apply T.
Qed.
(** Only the kind of node decides whether it can stand somewhere. *)
Definition kin (e e' : expr) : Prop := (callable e -> callable e') /\ (forall k, tight e k -> tight e' k) /\ (is_unary e -> is_unary e').
Lemma kin_stands c e e' : kin e e' -> stands c e -> stands c e'.
Proof.
  intros (K1 & K2 & K3). destruct c; cbn [stands]; auto.
  - intros (k & L & H). exists k. split; [easy|]. destruct (right_binary op); auto.
  - intros (k & L & H). exists k. split; [easy|]. destruct (right_binary op); destruct H; auto.
Qed.
Lemma not_vararg_inl e : is_vararg_expr e = false -> exists v, mean m e = inl v.
Proof. destruct e; cbn [mean is_vararg_expr]; intros; try discriminate; eauto. Qed.

Definition keeps (e : expr) : Prop := grammar e -> forall c, stands c e ->
  grammar (strip c e) /\ stands c (strip c e) /\ same_value m e (strip c e) /\ (c = CItem true -> same_values m e (strip c e)).
(** enough when the node stays what it is *)
Lemma keep_same c e e' : stands c e -> grammar e' -> kin e e' -> mean m e' = mean m e ->
  grammar e' /\ stands c e' /\ same_value m e e' /\ (c = CItem true -> same_values m e e').
Proof. intros St G K Em. unfold same_value, same_values. rewrite Em. split; [easy|]. split; [now apply (kin_stands c e)|easy]. Qed.

Lemma mean_call f s args : mean m (Call f s args) = inr (m_call m (single m (mean m f)) (arguments m args)).
Proof. reflexivity. Qed.
Lemma mean_method e key s args : mean m (Method e key s args) = inr (m_method m (single m (mean m e)) key (arguments m args)).
Proof. reflexivity. Qed.
Lemma mean_table its : mean m (Table its) = inl (m_table m (contents m its)).
Proof. reflexivity. Qed.
Lemma arguments_cons e a args : arguments m (ACons e (ACons a args)) = m_more m (single m (mean m e)) (arguments m (ACons a args)).
Proof. reflexivity. Qed.
Lemma arguments_last e : arguments m (ACons e ANil) = many m (mean m e).
Proof. reflexivity. Qed.
Lemma contents_index k v s its : contents m (TIndex k v s its) = m_pair m (single m (mean m k)) (single m (mean m v)) (contents m its).
Proof. reflexivity. Qed.
Lemma contents_named k v s its : contents m (TMember k v s its) = m_named m k (single m (mean m v)) (contents m its).
Proof. reflexivity. Qed.
Lemma contents_item e s its : its <> TNil -> contents m (TItem e s its) = m_item m (single m (mean m e)) (contents m its).
Proof. destruct its; easy. Qed.
Lemma contents_last e s : contents m (TItem e s TNil) = m_last m (many m (mean m e)).
Proof. reflexivity. Qed.

Lemma strip_call c f s args : strip c (Call f s args) = Call (strip CPrefix f) (s || drop_parens args) (strip_args args).
Proof. reflexivity. Qed.
Lemma strip_method c e key s args : strip c (Method e key s args) = Method (strip CPrefix e) key s (strip_args args).
Proof. reflexivity. Qed.
Lemma strip_table c its : strip c (Table its) = Table (strip_items its).
Proof. reflexivity. Qed.
Lemma strip_acons e args : strip_args (ACons e args) = ACons (strip (CItem (match args with ANil => true | _ => false end)) e) (strip_args args).
Proof. reflexivity. Qed.
Lemma strip_index k v sep its : strip_items (TIndex k v sep its) = TIndex (strip CFull k) (strip CFull v) (fix_sep sep its) (strip_items its).
Proof. reflexivity. Qed.
Lemma strip_named k v sep its : strip_items (TMember k v sep its) = TMember k (strip CFull v) (fix_sep sep its) (strip_items its).
Proof. reflexivity. Qed.
Lemma strip_item e sep its : strip_items (TItem e sep its) = TItem (strip (CItem (match its with TNil => true | _ => false end)) e) (fix_sep sep its) (strip_items its).
Proof. reflexivity. Qed.

Theorem strip_keeps :
  (forall e, keeps e) /\
  (forall args, grammar_args args -> grammar_args (strip_args args) /\ arguments m (strip_args args) = arguments m args /\ (short_args args \/ drop_parens args = true -> short_args (strip_args args))) /\
  (forall its, grammar_items its -> grammar_items (strip_items its) /\ contents m (strip_items its) = contents m its /\ (its = TNil <-> strip_items its = TNil)).
Proof.
  apply expr_all; unfold keeps.
  - (* constants *)
    intros t G c St. cbn [M_Expr.strip]. cbn [S_Expr.grammar] in G. destruct t as [[] v|]; cbn [fix_const constant] in *; try easy;
      try (apply keep_same; easy).
    + specialize (Hn (can_replace_with_unary c) v G). destruct (num (can_replace_with_unary c) v) as [w|sign w|sign w].
      * destruct Hn as (Pw & Em). apply keep_same; [easy|exact Pw|easy|]. cbn [mean]. now rewrite Em.
      * destruct Hn as (Al & U & Pw & Em). split; [easy|]. split.
        { destruct c; cbn [stands can_replace_with_unary ctx_prec] in *; try easy.
          - destruct St as (k & Lk & _). exists k. split; [easy|]. pose proof (proj1 (level_prec _ _) Lk) as Ek. rewrite Ek in Al. unfold k_unary_ops_prec in Al.
            destruct (right_binary op); cbn [tight]; lia.
          - destruct St as (k & Lk & _). exists k. split; [easy|]. now right. }
        unfold same_value, same_values. cbn [mean single many]. rewrite Em. easy.
      * destruct Hn as (U & Pw & Em). split; [easy|]. split; [apply callable_stands; [easy|now apply (stands_op c _ St)]|].
        unfold same_value, same_values. cbn [mean single many]. rewrite Em. easy.
    + specialize (Hs v G) as (Pw & Em). apply keep_same; [easy|exact Pw|easy|]. cbn [mean]. now rewrite Em.
  - intros _ c St. now apply keep_same.
  - intros v G c St. now apply keep_same.
  - intros body G c St. now apply keep_same.
  - (* groups *)
    intros inner IH G c St. specialize (IH G). cbn [M_Expr.strip]. destruct (remove focus_tokens negative c inner) eqn:Er.
    + destruct (IH c (remove_stands c inner G (stands_op c _ St) Er)) as (G' & St' & Sv & Svs). split; [easy|]. split; [easy|]. split; [exact Sv|].
      intros ->. cbn [remove ctx_prec negb orb] in Er. apply negb_true_iff in Er. destruct (not_vararg_inl _ Er) as (v & Ev).
      specialize (Svs eq_refl). unfold same_values in *. cbn [mean]. rewrite Ev in *. cbn [single many] in *. exact Svs.
    + destruct (IH CFull I) as (G' & St' & Sv & _). apply keep_same; [easy|easy|easy|]. cbn [mean]. unfold same_value in Sv. now rewrite Sv.
  - (* unary *)
    intros op e IH (U & G & T) c St. destruct (IH G CUnary T) as (G' & St' & Sv & _). cbn [M_Expr.strip]. rewrite (respell_unary _ U).
    apply keep_same; [easy|easy|easy|]. cbn [mean]. unfold same_value in Sv. now rewrite Sv.
  - (* binary *)
    intros op l IHl r IHr (Il & Gl & Gr & k & Lk & A) c St. cbn [M_Expr.strip].
    assert (Sl : stands (CLeft op) l /\ stands (CRight op) r).
    { destruct A as [(Na & Tl & Tr)|(Ra & Tl & Tr)].
      - destruct (right_binary op) eqn:Ro; [apply right_spec in Ro; easy|]. split; cbn [stands]; rewrite Ro; eauto.
      - apply right_spec in Ra. split; cbn [stands]; rewrite Ra; eauto. }
    destruct Sl as (Sl & Sr). destruct (IHl Gl _ Sl) as (Gl' & Sl' & Vl & _). destruct (IHr Gr _ Sr) as (Gr' & Sr' & Vr & _). pose proof (respell_level _ _ Lk) as Lk'.
    apply keep_same; [easy| | |].
    + cbn [S_Expr.grammar]. split; [now apply respell_lang|]. split; [easy|]. split; [easy|]. exists k. split; [easy|].
      destruct Sl' as (k1 & L1 & T1). destruct Sr' as (k2 & L2 & T2). rewrite <- (level_unique _ _ _ Lk L1) in T1. rewrite <- (level_unique _ _ _ Lk L2) in T2.
      rewrite <- right_spec, respell_right. destruct (right_binary op); [right|left]; easy.
    + split; [easy|]. split; [|easy]. intros n (n' & Ln & Hl). exists n'. split; [now apply respell_level|easy].
    + cbn [mean]. rewrite respell_mean. unfold same_value in *. now rewrite Vl, Vr.
  - intros e IH key (Ca & G & Pk) c St. destruct (IH G CPrefix Ca) as (G' & St' & Sv & _). cbn [M_Expr.strip]. apply keep_same; [easy|easy|easy|].
    cbn [mean]. unfold same_value in Sv. now rewrite Sv.
  - intros e IH k IHk (Ca & G & Gk) c St. destruct (IH G CPrefix Ca) as (G' & St' & Sv & _). destruct (IHk Gk CFull I) as (Gk' & _ & Svk & _).
    cbn [M_Expr.strip]. apply keep_same; [easy|easy|easy|]. cbn [mean]. unfold same_value in *. now rewrite Sv, Svk.
  - intros f IH short args IHa (Ca & G & Ga & Sh) c St. destruct (IH G CPrefix Ca) as (G' & St' & Sv & _). destruct (IHa Ga) as (Ga' & Va & Sh').
    rewrite strip_call. apply keep_same; [easy| |easy|rewrite !mean_call; unfold same_value in *; now rewrite Sv, Va].
    cbn [S_Expr.grammar]. repeat (split; [easy|]). intros E. apply Sh'. apply orb_prop in E as [->|E]; [left; auto|now right].
  - intros e IH key short args IHa (Ca & G & Pk & Ga & Sh) c St. destruct (IH G CPrefix Ca) as (G' & St' & Sv & _). destruct (IHa Ga) as (Ga' & Va & Sh').
    rewrite strip_method. apply keep_same; [easy| |easy|rewrite !mean_method; unfold same_value in *; now rewrite Sv, Va].
    cbn [S_Expr.grammar]. do 4 (split; [easy|]). intros E. apply Sh'. left. auto.
  - intros its IH G c St. destruct (IH G) as (G' & E & _). rewrite strip_table. apply keep_same; [easy|easy|easy|]. rewrite !mean_table. now rewrite E.
  - intros _. split; [easy|]. split; [easy|]. cbn. intuition discriminate.
  - intros e IH args IHa (G & Ga). destruct (IHa Ga) as (Ga' & Va & _). destruct (IH G (CItem (match args with ANil => true | _ => false end)) I) as (G' & _ & Sv & Svs).
    rewrite strip_acons. split; [easy|]. split.
    + destruct args as [|a args].
      * change (strip_args ANil) with ANil. rewrite !arguments_last. symmetry. now apply Svs.
      * change (strip_args (ACons a args)) with (ACons (strip (CItem (match args with ANil => true | _ => false end)) a) (strip_args args)) in *.
        rewrite !arguments_cons, Va. unfold same_value in Sv. now rewrite Sv.
    + intros H. destruct args as [|a args]; [|exfalso; destruct H as [H|H]; destruct e as [[[]|]| | | | | | | | | | |]; easy].
      destruct e as [[[] v|]| | | | | | | | | | |]; try (exfalso; destruct H as [H|H]; easy); exact I.
  - intros _. easy.
  - intros k IHk v IHv sep its IH (Gk & Gv & Sp & Gi). destruct (IH Gi) as (Gi' & Vi & Ni). destruct (IHk Gk CFull I) as (Gk' & _ & Svk & _).
    destruct (IHv Gv CFull I) as (Gv' & _ & Svv & _). rewrite strip_index. split.
    + cbn [S_Expr.grammar_items]. split; [easy|]. split; [easy|]. split; [|easy]. destruct its, sep; try (now subst); cbn; auto; discriminate Sp.
    + split; [|easy]. rewrite !contents_index. unfold same_value in *. now rewrite Svk, Svv, Vi.
  - intros key v IHv sep its IH (Pk & Gv & Sp & Gi). destruct (IH Gi) as (Gi' & Vi & Ni).
    destruct (IHv Gv CFull I) as (Gv' & _ & Svv & _). rewrite strip_named. split.
    + cbn [S_Expr.grammar_items]. split; [easy|]. split; [easy|]. split; [|easy]. destruct its, sep; try (now subst); cbn; auto; discriminate Sp.
    + split; [|easy]. rewrite !contents_named. unfold same_value in *. now rewrite Svv, Vi.
  - intros e IH sep its IHi (G & Sp & Gi). destruct (IHi Gi) as (Gi' & Vi & Ni). destruct (IH G (CItem (match its with TNil => true | _ => false end)) I) as (G' & _ & Sv & Svs).
    rewrite strip_item. split.
    + cbn [S_Expr.grammar_items]. split; [easy|]. split; [|easy]. destruct its, sep; try (now subst); cbn; auto; discriminate Sp.
    + split; [|easy]. unfold same_value, same_values in *. assert (N : its = TNil \/ its <> TNil) by (destruct its; [now left|right; easy..]).
      destruct N as [->|N].
      * change (strip_items TNil) with TNil. rewrite !contents_last. now rewrite <- (Svs eq_refl).
      * rewrite !contents_item by tauto. rewrite Vi. now rewrite Sv.
Qed.
End Strip.

(** ** The numbers of PICO-8 *)
Lemma literal_plain s x : unsigned_constant s x -> plain_word s /\ num_form s = NPlain s.
Proof.
  intros (n & d & (base & prefix & ip & fp & tail & Hb & Ht & -> & Fi & Ff & N & _) & _).
  assert (D : exists a t, prefix ++ ip ++ tail = a :: t /\ (48 <= a <= 57 \/ (a = 46 /\ exists b t', t = b :: t' /\ (48 <= b <= 57 \/ 97 <= b <= 102)))).
  { destruct Hb as [(-> & ->)|(-> & ->)]; [|exists 48, (120 :: ip ++ tail); split; [reflexivity|left; lia]]. cbn [app].
    destruct ip as [|a ip].
    - destruct fp as [|b fp]; [easy|]. destruct Ht as [(_ & E)| ->]; [discriminate E|]. cbn [app]. exists 46, (b :: fp). split; [reflexivity|]. right. split; [lia|].
      exists b, fp. split; [reflexivity|]. now inversion Ff as [|? ? (R & _)].
    - cbn [app]. exists a, (ip ++ tail). split; [reflexivity|]. inversion Fi as [|? ? (R & Dv) _]. subst. unfold digit_value in Dv. left. destruct (a <? 58) eqn:E; lia. }
  destruct D as (a & t & -> & Ha). split.
  - assert (Ne : forall w, In w (symbols ++ keywords) -> match w with
      | c :: w' => negb ((48 <=? c) && (c <=? 57)) && (negb (c =? 46) || match w' with b :: _ => b =? 46 | [] => true end) | [] => true end = true).
    { apply forallb_forall. vm_compute. reflexivity. }
    assert (No : ~ In (a :: t) (symbols ++ keywords)).
    { intros I. specialize (Ne _ I). cbn beta iota in Ne. destruct Ha as [Ha|(-> & b & t' & -> & Hb')]; [lia|]. lia. }
    rewrite in_app_iff in No. split; [tauto|]. unfold is_keyword. destruct (existsb _ _) eqn:E; [|easy]. apply existsb_in in E. tauto.
  - destruct Ha as [Ha|(-> & _)]; [|reflexivity]. assert (a = 48 \/ a = 49 \/ a = 50 \/ a = 51 \/ a = 52 \/ a = 53 \/ a = 54 \/ a = 55 \/ a = 56 \/ a = 57) as K by lia.
    repeat (destruct K as [->|K]; [reflexivity|]). subst. reflexivity.
Qed.

Lemma parse_fixnum_range v x : parse_fixnum v = Ok x -> 0 <= x < 2 ^ 32.
Proof.
  assert (A : forall y, 0 <= Z.land y k_fixnum_mask < 2 ^ 32) by (intros y; rewrite pf_mask; apply Z.mod_pos_bound; lia).
  assert (B : forall s y, parse_fixnum_abs s = Ok y -> 0 <= y < 2 ^ 32).
  { intros s y. unfold parse_fixnum_abs. destruct (match s with 48 :: 120 :: t => _ | _ => _ end) as (digits, s1).
    destruct (scan_digits digits 0 0 s1) as ((value, k), s2).
    match goal with |- (let '(_, _) := ?e in _) = _ -> _ => destruct e as ((n, d), s3) end.
    destruct s3; [|discriminate]. intros [= <-]. apply A. }
  unfold parse_fixnum. intros E.
  assert (C : forall (r : res Z) f, (forall y, 0 <= f y < 2 ^ 32) -> bind r (fun y => Ok (f y)) = Ok x -> 0 <= x < 2 ^ 32).
  { intros [y|] f Hf; cbn; [|discriminate]. intros [= <-]. apply Hf. }
  destruct (lower v) as [|c s]; [now apply B in E|].
  destruct c as [|c|c]; try (now apply B in E). repeat (destruct c as [c|c|]; try (now apply B in E); try (now apply C in E)).
Qed.
Lemma pico8_numbers lang m : fixed_point m -> same_numbers m lang pico8_num.
Proof.
  intros (val & Hv & Hu) allow v Pv. unfold pico8_num. destruct (parse_fixnum v) as [x|] eqn:Ex; cbn [bind]; [|easy].
  assert (Rx : 0 <= x < 2 ^ 32) by (now apply (parse_fixnum_range v)).
  destruct (fixnum_min_ok BNone x Rx) as (s & Es & Gs).
  assert (Plain : match num_form s with NPlain w => plain_word w /\ m_const m (Tok TNumber w) = m_const m (Tok TNumber v)
    | NSigned sign w => allow = true /\ unary lang sign /\ plain_word w /\ m_unary m sign (m_const m (Tok TNumber w)) = m_const m (Tok TNumber v)
    | NParens sign w => unary lang sign /\ plain_word w /\ m_unary m sign (m_const m (Tok TNumber w)) = m_const m (Tok TNumber v) end).
  { destruct (literal_plain s x (good_constant _ _ Gs)) as (Ps & ->). split; [easy|]. rewrite (Hv v x Ex). apply Hv. now apply good_parse. }
  destruct allow; [|cbn [format_fixnum]; rewrite Es; exact Plain].
  cbn [format_fixnum]. rewrite Es. cbn [bind]. destruct (negb _ && negb _); [|exact Plain].
  unfold format_fixnum_neg, format_fixnum_not. rewrite !pf_mask.
  replace (Z.lnot x mod 2 ^ 32) with (2 ^ 32 - 1 - x) by (unfold Z.lnot; change (2 ^ 32) with 4294967296 in *; lia).
  destruct (fixnum_min_ok BNone ((- x) mod 2 ^ 32)) as (sn & En & Gn); [apply Z.mod_pos_bound; lia|].
  destruct (fixnum_min_ok BNone (2 ^ 32 - 1 - x)) as (st & Et & Gt); [lia|]. rewrite En, Et. cbn [bind].
  assert (Un : unary lang (asc "-") /\ unary lang (asc "~")) by (split; left; cbn; auto).
  destruct (shorter_cases (126 :: st) (shorter (45 :: sn) s)) as [-> | ->]; [|destruct (shorter_cases (45 :: sn) s) as [-> | ->]; [|exact Plain]]; cbn [num_form].
  - split; [easy|]. split; [apply Un|]. split; [now apply (literal_plain st _ (good_constant _ _ Gt))|].
    rewrite (Hv v x Ex), (Hv st (2 ^ 32 - 1 - x)) by (now apply good_parse). destruct (Hu (2 ^ 32 - 1 - x)) as (_ & K); [lia|]. change [126] with (asc "~"). rewrite K. f_equal. lia.
  - split; [easy|]. split; [apply Un|]. split; [now apply (literal_plain sn _ (good_constant _ _ Gn))|].
    rewrite (Hv v x Ex), (Hv sn ((- x) mod 2 ^ 32)) by (now apply good_parse). destruct (Hu ((- x) mod 2 ^ 32)) as (K & _); [apply Z.mod_pos_bound; lia|]. change [45] with (asc "-"). rewrite K. f_equal.
    change (2 ^ 32) with 4294967296 in *. lia.
Qed.
