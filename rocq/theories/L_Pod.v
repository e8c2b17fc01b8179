(** Printing a pod and reading it again, for any way to print strings. *)
From Coq Require Import String List ZArith Lia Bool.
From Verif Require Import M_Base L_Util M_Fold M_Num M_Token M_Str M_Expr M_Pxu M_Pod S_Num S_Str S_Token S_Expr S_Pod L_Fold L_Num L_NumFmt L_Str L_Token L_ExprTok L_Luastr L_PodText P_Expr.
Import ListNotations.
Open Scope Z_scope.

Scheme pod_mut := Induction for pod Sort Prop with entries_mut := Induction for entries Sort Prop.
Combined Scheme pod_entries_ind from pod_mut, entries_mut.

(** ** Tokens *)
Definition follow (rest : list Z) : Prop := match rest with [] => True | c :: _ => In c [44; 125; 93; 41] end.
Lemma tok_plain c r ts : In c [123; 125; 40; 41; 93; 44] -> tokenize Picotron r = Ok ts -> tokenize Picotron (c :: r) = Ok (Tok TPunct [c] :: ts).
Proof.
  intros H E. rewrite tokenize_cons. cbn in H. repeat destruct H as [<-|H]; try contradiction; cbn; rewrite E; reflexivity.
Qed.
Lemma tok_open c r ts : c <> 61 -> c <> 91 -> tokenize Picotron (c :: r) = Ok ts -> tokenize Picotron (91 :: c :: r) = Ok (Tok TPunct [91] :: ts).
Proof.
  intros N1 N2 E. rewrite tokenize_cons. assert (R : tok_round Picotron 91 (c :: r) = Round [Tok TPunct [91]] (c :: r)).
  { unfold tok_round. cbn. destruct (Z.eqb_spec c 61); [lia|]. destruct (Z.eqb_spec c 91); [lia|]. reflexivity. }
  rewrite R, E. reflexivity.
Qed.
Lemma tok_eq c r ts : c <> 61 -> tokenize Picotron (c :: r) = Ok ts -> tokenize Picotron (61 :: c :: r) = Ok (Tok TPunct [61] :: ts).
Proof.
  intros N1 E. rewrite tokenize_cons. assert (R : tok_round Picotron 61 (c :: r) = Round [Tok TPunct [61]] (c :: r)).
  { unfold tok_round. cbn. destruct (Z.eqb_spec c 61); [lia|]. reflexivity. }
  rewrite R, E. reflexivity.
Qed.
Lemma tok_minus c r ts : 48 <= c <= 57 -> tokenize Picotron (c :: r) = Ok ts -> tokenize Picotron (45 :: c :: r) = Ok (Tok TPunct [45] :: ts).
Proof.
  intros N1 E. rewrite tokenize_cons. assert (R : tok_round Picotron 45 (c :: r) = Round [Tok TPunct [45]] (c :: r)).
  { unfold tok_round. cbn. destruct (Z.eqb_spec c 61); [lia|]. destruct c as [|p|p]; try lia. repeat (destruct p as [p|p|]; try reflexivity; try lia). }
  rewrite R, E. reflexivity.
Qed.
Lemma span_word f s rest : forallb f s = true -> stop f rest -> span f (s ++ rest) = (s, rest).
Proof. intros. now apply span_iff. Qed.
Lemma tok_word s rest ts : s <> [] -> forallb (is_ident_char Picotron) s = true -> match s with c :: _ => is_dec_digit c = false | [] => True end ->
  match rest with [] => True | c :: _ => is_ident_char Picotron c = false end ->
  tokenize Picotron rest = Ok ts -> tokenize Picotron (s ++ rest) = Ok (ident_tok s :: ts).
Proof.
  intros N F D R E. destruct s as [|c s]; [easy|]. cbn [app]. rewrite tokenize_cons. unfold tok_round.
  assert (C : is_ident_char Picotron c = true) by (cbn [forallb] in F; now apply andb_prop in F).
  assert (W : mem c k_wspace = false).
  { destruct (mem c k_wspace) eqn:W; [|reflexivity]. apply wspace_cases in W. unfold is_ident_char in C. cbn in C. lia. }
  rewrite W, D. assert (Dot : c =? 46 = false) by (unfold is_ident_char in C; cbn in C; lia). rewrite Dot. cbn [orb andb]. rewrite C.
  change (c :: s ++ rest) with ((c :: s) ++ rest). rewrite span_word; [|exact F|destruct rest; [exact I|exact R]]. rewrite E. reflexivity.
Qed.
Lemma number_digits h s : Forall (is_digit 10) s -> forall p rest, match rest with [] => True | c :: _ => In c [44; 125; 93; 41] end ->
  number_picotron h p (s ++ rest) = (s, rest).
Proof.
  induction 1 as [|c s D F IH]; intros p rest R.
  - cbn [app]. destruct rest as [|c r]; [reflexivity|]. cbn [number_picotron].
    assert (X : is_ident_char Picotron c || (c =? 46) || (mem c [45; 43] && mem p (if h then [112; 80] else [101; 69])) = false).
    { cbn in R. repeat destruct R as [<-|R]; try contradiction; reflexivity. }
    rewrite X. reflexivity.
  - cbn [app number_picotron]. apply digit10 in D. assert (X : is_ident_char Picotron c = true) by (unfold is_ident_char; lia). rewrite X. cbn [orb].
    rewrite IH by exact R. reflexivity.
Qed.
Lemma tok_number s rest ts : s <> [] -> Forall (is_digit 10) s -> follow rest -> tokenize Picotron rest = Ok ts ->
  tokenize Picotron (s ++ rest) = Ok (Tok TNumber s :: ts).
Proof.
  intros N F R E. destruct s as [|c s]; [easy|]. cbn [app]. rewrite tokenize_cons. unfold tok_round.
  pose proof (proj1 (digit10 c) (Forall_inv F)) as D.
  assert (W : mem c k_wspace = false). { destruct (mem c k_wspace) eqn:W; [|reflexivity]. apply wspace_cases in W. lia. }
  assert (G : is_dec_digit c = true) by (unfold is_dec_digit; lia). rewrite W, G. cbn [orb scan_number].
  change (c :: s ++ rest) with ((c :: s) ++ rest). rewrite number_digits by assumption. rewrite E. reflexivity.
Qed.

(** ** Integers *)
Definition int_text (z : Z) : list Z := if z <? 0 then 45 :: base_str 10 (- z) else base_str 10 z.
Definition digits (z : Z) : list Z := base_str 10 (Z.abs z).
Lemma digits_ok z : keeps_int z -> Forall (is_digit 10) (digits z) /\ digits z <> [] /\ parse_luanum (digits z) = Ok (LInt (Z.abs z)).
Proof.
  intros (H1 & H2). change (2 ^ 63) with 9223372036854775808 in H2. change (10 ^ 18) with 1000000000000000000 in H1.
  destruct (base_str_ok 10 (Z.abs z) ltac:(lia) ltac:(lia)) as (F & V & N & _). repeat (split; [assumption|]).
  destruct (int_good_dec _ F N) as (_ & K & _); [rewrite V; change (2 ^ 63) with 9223372036854775808; lia|]. rewrite V in K. exact K.
Qed.
Lemma format_int_eq z : keeps_int z -> format_int z = int_text z.
Proof.
  intros (H1 & H2). change (2 ^ 63) with 9223372036854775808 in H2. change (10 ^ 18) with 1000000000000000000 in H1.
  unfold format_int, int_text. cbn [format_luaint]. rewrite !land_mask64, neg_masked. destruct (Z.ltb_spec z 0) as [N|N].
  - assert (Em : z mod 2 ^ 64 = z + 18446744073709551616) by (change (2 ^ 64) with 18446744073709551616; lia).
    assert (T : negb (Z.land (z mod 2 ^ 64) 0x8000000000000000 =? 0) && negb (z mod 2 ^ 64 =? 0x8000000000000000) = true).
    { apply andb_true_iff. split; [|rewrite Em; destruct (Z.eqb_spec (z + 18446744073709551616) 0x8000000000000000); [lia|reflexivity]].
      destruct (Z.eqb_spec (Z.land (z mod 2 ^ 64) 0x8000000000000000) 0) as [K|K]; [exfalso|reflexivity].
      assert (B : Z.testbit (Z.land (z mod 2 ^ 64) 0x8000000000000000) 63 = false) by (now rewrite K, Z.bits_0).
      rewrite Z.land_spec in B. change (Z.testbit 0x8000000000000000 63) with true in B. rewrite andb_true_r in B.
      rewrite Z.testbit_odd, Z.shiftr_div_pow2, Em in B by lia. change (2 ^ 63) with 9223372036854775808 in B.
      replace ((z + 18446744073709551616) / 9223372036854775808) with 1 in B by lia. discriminate B. }
    rewrite T. unfold shorter, format_luaint_neg. cbn [luaint_min]. rewrite zlen_cons, land_mask64.
    replace ((- z) mod 2 ^ 64) with (- z) by (change (2 ^ 64) with 18446744073709551616; lia).
    pose proof (base_str_len 10 (- z) 18 ltac:(lia) ltac:(change (10 ^ 18) with 1000000000000000000; lia) ltac:(lia)).
    pose proof (base_str_long 10 (z mod 2 ^ 64) 19 ltac:(lia) ltac:(lia) ltac:(rewrite Em; change (10 ^ 19) with 10000000000000000000; lia)).
    destruct (Z.ltb_spec (1 + zlen (base_str 10 (- z))) (zlen (base_str 10 (z mod 2 ^ 64)))); [reflexivity|lia].
  - assert (Em : z mod 2 ^ 64 = z) by (change (2 ^ 64) with 18446744073709551616; lia).
    assert (T : negb (Z.land (z mod 2 ^ 64) 0x8000000000000000 =? 0) = false).
    { rewrite Em. apply negb_false_iff, Z.eqb_eq. apply Z.bits_inj'. intros i Hi. rewrite Z.land_spec, Z.bits_0.
      change 0x8000000000000000 with (2 ^ 63). rewrite Z.pow2_bits_eqb by lia. destruct (Z.eqb_spec 63 i) as [<-|?]; [|apply andb_false_r].
      rewrite andb_true_r, Z.testbit_odd, Z.shiftr_div_pow2 by lia. change (2 ^ 63) with 9223372036854775808.
      replace (z / 9223372036854775808) with 0 by lia. reflexivity. }
    rewrite T, Em. reflexivity.
Qed.
Lemma int_text_eq z : int_text z = if z <? 0 then 45 :: digits z else digits z.
Proof. unfold int_text, digits. destruct (Z.ltb_spec z 0); [now rewrite Z.abs_neq by lia|now rewrite Z.abs_eq]. Qed.
Definition int_tree (z : Z) : expr :=
  if z <? 0 then Unary (asc "-") (Const (Tok TNumber (digits z))) else Const (Tok TNumber (digits z)).
Lemma int_tok z rest ts : keeps_int z -> follow rest -> tokenize Picotron rest = Ok ts -> tokenize Picotron (int_text z ++ rest) = Ok (print (int_tree z) ++ ts).
Proof.
  intros K R E. destruct (digits_ok z K) as (F & N & _). rewrite int_text_eq. unfold int_tree. destruct (z <? 0).
  - pose proof (tok_number _ _ _ N F R E) as T. cbn [app]. destruct (digits z) as [|c w]; [easy|]. cbn [app] in *.
    apply tok_minus; [apply digit10; now inversion F|exact T].
  - exact (tok_number _ _ _ N F R E).
Qed.
Lemma digits_word s : s <> [] -> Forall (is_digit 10) s -> plain_word s.
Proof.
  intros N F. apply odd_plain; [exact N|]. destruct s as [|c s]; [easy|]. cbn [odd]. left. apply digit10. now inversion F.
Qed.

(** ** Pods as text and as trees *)
Definition is_index (index : Z) (k : pod) : bool := match number_of k with Some z => z =? index | None => false end.
Definition ident_key (k : pod) : option (list Z) := match k with VStr s => if is_identifier s then Some s else None | _ => None end.

Section Core.
(** [lit]: how a string is printed; [val]: what it is read as; [kd]: which userdata are kept
    apart, as [ph] *)
Context (lit : list Z -> list Z) (kd : userdata -> bool).
Definition user_text (u : userdata) : list Z :=
  asc "userdata(" ++ lit (ud_type u) ++ asc "," ++ int_text (ud_width u) ++ asc "," ++
  (if ud_height u =? 0 then [] else int_text (ud_height u) ++ asc ",") ++ lit (ud_data u) ++ asc ")".
Section Text.
Context (ph : list Z).
Fixpoint ptext (v : pod) : list Z :=
  match v with
  | VNil => asc "nil"
  | VBool b => asc (if b then "true" else "false")%string
  | VInt z => int_text z
  | VFloat => []
  | VStr s => lit s
  | VUser u => if kd u then ph else user_text u
  | VTable t => asc "{" ++ etext 1 t ++ asc "}"
  end
with etext (index : Z) (t : entries) : list Z :=
  match t with
  | ENil => []
  | ECons k v t =>
      (if is_index index k then ptext v
       else match ident_key k with
            | Some s => s ++ asc "=" ++ ptext v
            | None => asc "[" ++ ptext k ++ asc "]=" ++ ptext v
            end) ++
      match t with ENil => [] | _ => asc "," ++ etext (if is_index index k then index + 1 else index) t end
  end.
End Text.
Definition str_tree (s : list Z) : expr := Const (Tok TString (lit s)).
Definition user_tree (u : userdata) : expr :=
  Call (Var (asc "userdata")) false
    (if kd u then ANil
     else ACons (str_tree (ud_type u)) (ACons (int_tree (ud_width u))
       (if ud_height u =? 0 then ACons (str_tree (ud_data u)) ANil
        else ACons (int_tree (ud_height u)) (ACons (str_tree (ud_data u)) ANil)))).
Definition sep_of (t : entries) : option (list Z) := match t with ENil => None | _ => Some (asc ",") end.
Fixpoint tree (v : pod) : expr :=
  match v with
  | VNil => Const (kw "nil")
  | VBool b => Const (kw (if b then "true" else "false")%string)
  | VInt z => int_tree z
  | VFloat => Varargs
  | VStr s => str_tree s
  | VUser u => user_tree u
  | VTable t => Table (titems 1 t)
  end
with titems (index : Z) (t : entries) : items :=
  match t with
  | ENil => TNil
  | ECons k v t =>
      if is_index index k then TItem (tree v) (sep_of t) (titems (index + 1) t)
      else match ident_key k with
           | Some s => TMember s (tree v) (sep_of t) (titems index t)
           | None => TIndex (tree k) (tree v) (sep_of t) (titems index t)
           end
  end.
Fixpoint kept (v : pod) : list userdata :=
  match v with VUser u => if kd u then [u] else [] | VTable t => kept_entries t | _ => [] end
with kept_entries (t : entries) : list userdata :=
  match t with ENil => [] | ECons k v t => kept k ++ kept v ++ kept_entries t end.

Lemma etext_cons ph index k v t : etext ph index (ECons k v t) =
  (if is_index index k then ptext ph v
   else match ident_key k with
        | Some s => s ++ asc "=" ++ ptext ph v
        | None => asc "[" ++ ptext ph k ++ asc "]=" ++ ptext ph v
        end) ++
  match t with ENil => [] | _ => asc "," ++ etext ph (if is_index index k then index + 1 else index) t end.
Proof. reflexivity. Qed.
Lemma titems_cons index k v t : titems index (ECons k v t) =
  if is_index index k then TItem (tree v) (sep_of t) (titems (index + 1) t)
  else match ident_key k with
       | Some s => TMember s (tree v) (sep_of t) (titems index t)
       | None => TIndex (tree k) (tree v) (sep_of t) (titems index t)
       end.
Proof. reflexivity. Qed.
Lemma kept_cons k v t : kept_entries (ECons k v t) = kept k ++ kept v ++ kept_entries t.
Proof. reflexivity. Qed.

Context (val : list Z -> list Z) (P : list Z -> Prop) (Q : userdata -> Prop) (same : list Z -> list Z -> Prop).
Context (lit_ok : forall s, P s -> exists b, lit s = literal b /\ escaped b (val s)).
Context (val_ascii : forall s, Forall ascii s -> val s = s).
Context (val_same : forall s s', P s -> P s' -> val s = val s' -> same s s').
Notation good := (all_pod P Q).
Notation good_e := (all_entries P Q).

Lemma lit_tok s rest ts : P s -> tokenize Picotron rest = Ok ts -> tokenize Picotron (lit s ++ rest) = Ok (Tok TString (lit s) :: ts).
Proof.
  intros H E. destruct (lit_ok s H) as (b & -> & X). destruct (literal_reads _ _ X) as (_ & O). rewrite (O rest), E. reflexivity.
Qed.
Lemma lit_head s : P s -> exists r, lit s = 34 :: r.
Proof. intros H. destruct (lit_ok s H) as (b & -> & _). now eexists. Qed.
Definition head_fine (s : list Z) : Prop := exists c r, s = c :: r /\ c <> 61 /\ c <> 91.
Lemma int_head z : keeps_int z -> head_fine (int_text z).
Proof.
  intros K. destruct (digits_ok z K) as (F & N & _). rewrite int_text_eq. destruct (z <? 0); [exists 45; eexists; repeat split; lia|].
  destruct (digits z) as [|c w]; [easy|]. exists c, w. inversion F; subst. apply digit10 in H1. repeat split; lia.
Qed.
Lemma text_head v : storable same v -> good v -> head_fine (ptext k_userdata v).
Proof.
  destruct v as [|b|z| |s|u|t]; cbn [storable all_pod ptext]; intros S G.
  - exists 110. eexists. repeat split; lia.
  - destruct b; [exists 116|exists 102]; eexists; repeat split; lia.
  - now apply int_head.
  - contradiction.
  - destruct (lit_head s G) as (r & ->). exists 34, r. repeat split; lia.
  - destruct (kd u); exists 117; eexists; repeat split; lia.
  - exists 123. eexists. repeat split; lia.
Qed.
Lemma head_eq s r ts : head_fine s -> tokenize Picotron (s ++ r) = Ok ts -> tokenize Picotron (61 :: s ++ r) = Ok (Tok TPunct [61] :: ts).
Proof. intros (c & w & -> & N & _) E. now apply tok_eq. Qed.
Lemma head_open s r ts : head_fine s -> tokenize Picotron (s ++ r) = Ok ts -> tokenize Picotron (91 :: s ++ r) = Ok (Tok TPunct [91] :: ts).
Proof. intros (c & w & -> & N & N') E. now apply tok_open. Qed.
Lemma follow_cons c r : In c [44; 125; 93; 41] -> follow (c :: r).
Proof. easy. Qed.
Ltac fol := apply follow_cons; cbn; auto.
Lemma word_rest c : In c [44; 125; 93; 41; 40; 61] -> is_ident_char Picotron c = false.
Proof. clear. cbn. intros H. repeat destruct H as [<-|H]; try contradiction; reflexivity. Qed.
Lemma follow_word rest : follow rest -> match rest with [] => True | c :: _ => is_ident_char Picotron c = false end.
Proof. destruct rest as [|c r]; [easy|]. cbn [follow]. intros H. apply word_rest. cbn in *. intuition. Qed.

Lemma user_tok u rest ts : P (ud_type u) -> P (ud_data u) -> keeps_int (ud_width u) -> keeps_int (ud_height u) ->
  tokenize Picotron rest = Ok ts -> tokenize Picotron ((if kd u then k_userdata else user_text u) ++ rest) = Ok (print (user_tree u) ++ ts).
Proof.
  intros P1 P2 K1 K2 E. unfold user_tree, user_text, k_userdata. destruct (kd u).
  - change (asc "userdata()" ++ rest) with (asc "userdata" ++ 40 :: 41 :: rest). change (print _ ++ ts) with (ident_tok (asc "userdata") :: Tok TPunct [40] :: Tok TPunct [41] :: ts).
    apply tok_word; [easy|reflexivity|reflexivity|reflexivity|]. do 2 (apply tok_plain; [cbn; auto|]). exact E.
  - set (h := ud_height u) in *. set (w := ud_width u) in *.
    assert (X1 : tokenize Picotron (lit (ud_data u) ++ 41 :: rest) = Ok (Tok TString (lit (ud_data u)) :: Tok TPunct [41] :: ts)).
    { apply lit_tok; [exact P2|]. apply tok_plain; [cbn; auto|exact E]. }
    assert (C : forall r ts', tokenize Picotron r = Ok ts' -> tokenize Picotron (44 :: r) = Ok (Tok TPunct [44] :: ts')) by (intros; apply tok_plain; [cbn; auto 10|assumption]).
    assert (X2 : tokenize Picotron ((if h =? 0 then [] else int_text h ++ asc ",") ++ lit (ud_data u) ++ 41 :: rest) =
      Ok ((if h =? 0 then [] else print (int_tree h) ++ [Tok TPunct [44]]) ++ Tok TString (lit (ud_data u)) :: Tok TPunct [41] :: ts)).
    { destruct (h =? 0); [exact X1|]. rewrite <- !app_assoc. apply int_tok; [exact K2|fol|]. apply C, X1. }
    replace ((asc "userdata(" ++ lit (ud_type u) ++ asc "," ++ int_text w ++ asc "," ++ (if h =? 0 then [] else int_text h ++ asc ",") ++ lit (ud_data u) ++ asc ")") ++ rest)
      with (asc "userdata" ++ 40 :: lit (ud_type u) ++ 44 :: int_text w ++ 44 :: (if h =? 0 then [] else int_text h ++ asc ",") ++ lit (ud_data u) ++ 41 :: rest)
      by (rewrite <- !app_assoc; reflexivity).
    replace (print _ ++ ts) with (ident_tok (asc "userdata") :: Tok TPunct [40] :: Tok TString (lit (ud_type u)) :: Tok TPunct [44] :: print (int_tree w) ++ Tok TPunct [44] ::
      (if h =? 0 then [] else print (int_tree h) ++ [Tok TPunct [44]]) ++ Tok TString (lit (ud_data u)) :: Tok TPunct [41] :: ts).
    2:{ destruct (h =? 0); cbn [print print_args str_tree app]; rewrite <- ?app_assoc; cbn [app]; rewrite <- ?app_assoc; reflexivity. }
    apply tok_word; [easy|reflexivity|reflexivity|reflexivity|]. apply tok_plain; [cbn; auto|]. apply lit_tok; [exact P1|]. apply C.
    apply int_tok; [exact K1|fol|]. apply C, X2.
Qed.

Lemma ident_word s : is_identifier s = true -> s <> [] /\ forallb (is_ident_char Picotron) s = true /\ match s with c :: _ => is_dec_digit c = false | [] => True end /\
  ident_tok s = Tok TIdent s /\ plain_word s /\ Forall ascii s.
Proof.
  clear. destruct s as [|c s]; [discriminate|]. cbn [is_identifier]. intros H. apply andb_prop in H as (H & K). apply andb_prop in H as (F & D).
  apply negb_true_iff in K, D. split; [easy|]. split; [exact F|]. split; [exact D|]. unfold ident_tok. rewrite K. split; [reflexivity|]. split.
  - apply (ident_plain Picotron); [|exact K]. cbn [forallb] in F. now apply andb_prop in F.
  - clear -F. apply Forall_forall. intros x I. rewrite forallb_forall in F. specialize (F x I). unfold is_ident_char in F. cbn in F. unfold ascii. lia.
Qed.

Lemma text_tok :
  (forall v, storable same v -> good v -> forall rest ts, follow rest -> tokenize Picotron rest = Ok ts ->
     tokenize Picotron (ptext k_userdata v ++ rest) = Ok (print (tree v) ++ ts)) /\
  (forall t, storable_entries same t -> good_e t -> forall index rest ts, follow rest -> tokenize Picotron rest = Ok ts ->
     tokenize Picotron (etext k_userdata index t ++ rest) = Ok (print_items (titems index t) ++ ts)).
Proof.
  apply pod_entries_ind.
  - intros _ _ rest ts R E. apply tok_word; [easy|reflexivity|reflexivity|now apply follow_word|exact E].
  - intros b _ _ rest ts R E. destruct b; apply tok_word; try easy; try reflexivity; try now apply follow_word.
  - intros z S _ rest ts R E. now apply int_tok.
  - intros [].
  - intros s _ G rest ts _ E. cbn [tree print app str_tree ptext]. now apply lit_tok.
  - intros u (K1 & K2) (P1 & P2 & _) rest ts _ E. now apply user_tok.
  - intros t IH S G rest ts R E. change (ptext k_userdata (VTable t)) with (asc "{" ++ etext k_userdata 1 t ++ asc "}"). change (print (tree (VTable t))) with (pt "{" :: print_items (titems 1 t) ++ [pt "}"]).
    replace ((asc "{" ++ etext k_userdata 1 t ++ asc "}") ++ rest) with (123 :: etext k_userdata 1 t ++ 125 :: rest) by (rewrite <- !app_assoc; reflexivity).
    cbn [app]. rewrite <- app_assoc. apply tok_plain; [cbn; auto|]. apply IH; [exact S|exact G|fol|]. apply tok_plain; [cbn; auto|exact E].
  - intros _ _ index rest ts _ E. exact E.
  - intros k IHk v IHv t IHt (Sk & Sv & _ & Kk & _ & St) (Gk & Gv & Gt) index rest ts R E. rewrite etext_cons, titems_cons.
    set (next := if is_index index k then index + 1 else index).
    set (more := match t with ENil => [] | _ => asc "," ++ etext k_userdata next t end).
    assert (M : exists tm, tokenize Picotron (more ++ rest) = Ok tm /\ tm = sep_toks (sep_of t) ++ print_items (titems next t) ++ ts /\ follow (more ++ rest)).
    { unfold more. destruct t as [|k' v' t']; [exists ts; repeat split; auto|]. eexists. split; [|split; [reflexivity|fol]].
      cbn [app sep_toks sep_of]. apply tok_plain; [cbn; auto 10|]. now apply IHt. }
    destruct M as (tm & M1 & M2 & M3). specialize (IHv Sv Gv (more ++ rest) tm M3 M1). rewrite <- app_assoc.
    unfold next in M2. destruct (is_index index k) eqn:I.
    + cbn [print_items]. rewrite IHv, M2, <- !app_assoc. reflexivity.
    + pose proof (text_head v Sv Gv) as Hv. pose proof (head_eq _ _ _ Hv IHv) as Ev. destruct (ident_key k) as [s|] eqn:Ik.
      * assert (Es : is_identifier s = true) by (destruct k; try discriminate Ik; cbn in Ik; destruct (is_identifier _) eqn:Id; [injection Ik as <-; exact Id|discriminate]).
        destruct (ident_word s Es) as (N & F & D & It & _ & _). pose proof (tok_word s (61 :: ptext k_userdata v ++ more ++ rest) _ N F D eq_refl Ev) as E2.
        replace ((s ++ asc "=" ++ ptext k_userdata v) ++ more ++ rest) with (s ++ 61 :: ptext k_userdata v ++ more ++ rest) by (rewrite <- !app_assoc; reflexivity). rewrite E2, It, M2.
        cbn [print_items app]. rewrite <- !app_assoc. reflexivity.
      * assert (Fo : follow (93 :: 61 :: ptext k_userdata v ++ more ++ rest)) by fol.
        pose proof (tok_plain 93 _ _ ltac:(cbn; auto 10) Ev) as E2. specialize (IHk Sk Gk _ _ Fo E2).
        pose proof (head_open _ _ _ (text_head k Sk Gk) IHk) as E3.
        replace ((asc "[" ++ ptext k_userdata k ++ asc "]=" ++ ptext k_userdata v) ++ more ++ rest)
          with (91 :: ptext k_userdata k ++ 93 :: 61 :: ptext k_userdata v ++ more ++ rest) by (rewrite <- !app_assoc; reflexivity).
        rewrite E3, M2. cbn [print_items app]. rewrite <- !app_assoc. cbn [app]. rewrite <- !app_assoc. reflexivity.
Qed.

(** ** The trees are grammatical *)
Section Grammar.
Context (rf : list tok -> res (list tok * list tok)).
Lemma int_grammar z : keeps_int z -> grammar Picotron rf (int_tree z).
Proof.
  intros K. destruct (digits_ok z K) as (F & N & _). unfold int_tree. destruct (z <? 0); cbn [grammar constant tight].
  - split; [left; cbn; auto|]. split; [now apply digits_word|exact I].
  - now apply digits_word.
Qed.
Lemma str_grammar s : P s -> grammar Picotron rf (str_tree s).
Proof. intros H. cbn. destruct (lit_head s H) as (r & ->). apply odd_plain; [easy|]. cbn. lia. Qed.
Lemma user_grammar u : storable same (VUser u) -> good (VUser u) -> grammar Picotron rf (user_tree u).
Proof.
  intros (K1 & K2) (P1 & P2 & _). unfold user_tree. cbn [grammar].
  split; [exact I|]. split; [split; [|reflexivity]; intros H; cbn in H; repeat destruct H as [H|H]; try discriminate H; contradiction|]. split; [|discriminate].
  destruct (kd u); [exact I|]. destruct (ud_height u =? 0); cbn [grammar_args]; repeat (split; [first [now apply int_grammar|now apply str_grammar]|]); exact I.
Qed.
Lemma sep_ok t index : separator (sep_of t) (titems index t).
Proof. destruct t as [|k v t]; [reflexivity|]. now left. Qed.
Lemma tree_grammar :
  (forall v, storable same v -> good v -> grammar Picotron rf (tree v)) /\
  (forall t, storable_entries same t -> good_e t -> forall index, grammar_items Picotron rf (titems index t)).
Proof.
  apply pod_entries_ind.
  - intros _ _. cbn. auto.
  - intros b _ _. destruct b; cbn; auto.
  - intros z S _. now apply int_grammar.
  - intros [].
  - intros s _ G. now apply str_grammar.
  - intros u S G. now apply user_grammar.
  - intros t IH S G. exact (IH S G 1).
  - intros _ _ index. exact I.
  - intros k IHk v IHv t IHt (Sk & Sv & _ & _ & _ & St) (Gk & Gv & Gt) index. rewrite titems_cons.
    destruct (is_index index k); [|destruct (ident_key k) as [s|] eqn:Ik]; cbn [grammar_items].
    + split; [now apply IHv|]. split; [|now apply IHt]. apply sep_ok.
    + assert (Es : is_identifier s = true) by (destruct k; try discriminate Ik; cbn in Ik; destruct (is_identifier _) eqn:Id; [injection Ik as <-; exact Id|discriminate]).
      destruct (ident_word s Es) as (_ & _ & _ & _ & W & _). split; [exact W|]. split; [now apply IHv|]. split; [|now apply IHt]. apply sep_ok.
    + split; [now apply IHk|]. split; [now apply IHv|]. split; [|now apply IHt]. apply sep_ok.
Qed.
End Grammar.

(** ** Reading the trees *)
Definition umap (u : userdata) : userdata := mkud (val (ud_type u)) (ud_width u) (ud_height u) (val (ud_data u)).
Fixpoint vmap (v : pod) : pod :=
  match v with VStr s => VStr (val s) | VUser u => VUser (umap u) | VTable t => VTable (emap t) | _ => v end
with emap (t : entries) : entries :=
  match t with ENil => ENil | ECons k v t => ECons (vmap k) (vmap v) (emap t) end.
Lemma emap_cons k v t : emap (ECons k v t) = ECons (vmap k) (vmap v) (emap t).
Proof. reflexivity. Qed.
Fixpoint eapp (a b : entries) : entries := match a with ENil => b | ECons k v a => ECons k v (eapp a b) end.
Lemma eapp_nil a : eapp a ENil = a.
Proof. induction a as [|k v a IH]; [reflexivity|]. cbn [eapp]. now rewrite IH. Qed.
Lemma eapp_cons a k v b : eapp (eapp a (ECons k v ENil)) b = eapp a (ECons k v b).
Proof. induction a as [|k' v' a IH]; [reflexivity|]. cbn [eapp]. now rewrite IH. Qed.
Lemma keys_app a b : keys (eapp a b) = keys a ++ keys b.
Proof. induction a as [|k v a IH]; [reflexivity|]. cbn [eapp keys app]. now rewrite IH. Qed.
Lemma dict_set_new t k v : Forall (fun k' => key_eqb k' k = false) (keys t) -> dict_set t k v = eapp t (ECons k v ENil).
Proof.
  induction t as [|k' v' t IH]; intros H; [reflexivity|]. cbn [keys] in H. inversion H as [|? ? E F]; subst. cbn [dict_set eapp]. rewrite E. now rewrite IH.
Qed.
Context (kd_val : forall u, Q u -> kd u = true -> val (ud_type u) = ud_type u /\ val (ud_data u) = ud_data u).
Lemma umap_kept u : Q u -> kd u = true -> umap u = u.
Proof. intros G H. destruct (kd_val u G H) as (E1 & E2). unfold umap. rewrite E1, E2. now destruct u. Qed.

Definition key_shape (k : pod) : Prop := match k with VInt _ | VStr _ | VUser _ => True | VBool b => b = false | _ => False end.
Lemma zeqb_no a b : a <> b -> zeqb_list a b = false.
Proof. clear. intros N. destruct (zeqb_list a b) eqn:E; [|reflexivity]. apply zeqb_list_true in E. contradiction. Qed.
Lemma keys_apart k k' : key_shape k -> key_shape k' -> good k -> good k' -> ~ clash same k k' -> key_eqb (vmap k) (vmap k') = false.
Proof.
  intros Sk Sk' Gk Gk' N. destruct k as [|b|z| |s|u|t]; try contradiction Sk; destruct k' as [|b'|z'| |s'|u'|t']; try contradiction Sk'; cbn in N; try reflexivity.
  - cbn in Sk, Sk'. subst. now elim N.
  - unfold key_eqb. cbn -[Z.eqb]. destruct (Z.eqb_spec (Z.b2z b) z'); [|reflexivity]. now elim N.
  - unfold key_eqb. cbn -[Z.eqb]. destruct (Z.eqb_spec z (Z.b2z b')); [|reflexivity]. now elim N.
  - unfold key_eqb. cbn -[Z.eqb]. destruct (Z.eqb_spec z z'); [|reflexivity]. now elim N.
  - unfold key_eqb. cbn [vmap number_of]. apply zeqb_no. intros E. apply N. now apply val_same.
  - unfold key_eqb. cbn [vmap number_of]. unfold ud_eqb, umap. cbn [ud_type ud_width ud_height ud_data].
    destruct (zeqb_list (val (ud_type u)) (val (ud_type u'))) eqn:E1; [|reflexivity]. destruct (Z.eqb_spec (ud_width u) (ud_width u')) as [E2|]; [|reflexivity].
    destruct (Z.eqb_spec (ud_height u) (ud_height u')) as [E3|]; [|reflexivity]. cbn [andb]. apply zeqb_no. intros E4. apply N.
    apply zeqb_list_true in E1. destruct Gk as (A1 & A2 & _). destruct Gk' as (B1 & B2 & _). repeat split; auto.
Qed.

Section Read.
Context (rf : list tok -> res (list tok * list tok)) (unpod : list Z -> res pod).
Notation value := (node_to_value unpod).
Lemma int_value z q : keeps_int z -> value (int_tree z) q = Ok (VInt z, q).
Proof.
  intros K. destruct (digits_ok z K) as (_ & _ & E). unfold int_tree. destruct (Z.ltb_spec z 0).
  - change (value _ q) with (v <- number_value true (digits z) ;; Ok (v, q))%res. unfold number_value. rewrite E. cbn [bind]. repeat f_equal. lia.
  - change (value _ q) with (v <- number_value false (digits z) ;; Ok (v, q))%res. unfold number_value. rewrite E. cbn [bind]. repeat f_equal. lia.
Qed.
Lemma str_value s q : P s -> value (str_tree s) q = Ok (VStr (val s), q).
Proof.
  intros H. destruct (lit_ok s H) as (b & E & X). destruct (literal_reads _ _ X) as (R & _). unfold str_tree. rewrite E.
  cbn [node_to_value]. rewrite R. reflexivity.
Qed.
Lemma table_value its q : value (Table its) q = ('(t, q) <- items_to_values unpod its 1 ENil q ;; Ok (VTable t, q))%res.
Proof. reflexivity. Qed.
Lemma args_cons e args q : args_to_values unpod (ACons e args) q = ('(v, q) <- value e q ;; '(vs, q) <- args_to_values unpod args q ;; Ok (v :: vs, q))%res.
Proof. reflexivity. Qed.
Lemma call_value args q : value (Call (Var (asc "userdata")) false args) q = ('(vs, q) <- args_to_values unpod args q ;; userdata_value vs q)%res.
Proof. reflexivity. Qed.
Lemma user_value u q : storable same (VUser u) -> good (VUser u) ->
  value (user_tree u) ((if kd u then [u] else []) ++ q) = Ok (VUser (umap u), q).
Proof.
  intros (K1 & K2) (P1 & P2 & G). unfold user_tree. rewrite call_value. destruct (kd u) eqn:D.
  - cbn. now rewrite umap_kept.
  - cbn [app]. destruct (Z.eqb_spec (ud_height u) 0) as [H0|H0]; repeat (rewrite args_cons; first [rewrite str_value by assumption|rewrite int_value by assumption]; cbn [bind]); cbn [args_to_values bind];
    unfold userdata_value, umap; cbn; [now rewrite H0|reflexivity].
Qed.
Lemma item_step e sep its index t q : items_to_values unpod (TItem e sep its) index t q =
  ('(value, q) <- value e q ;; items_to_values unpod its (index + 1) (if is_nil value then t else dict_set t (VInt index) value) q)%res.
Proof. reflexivity. Qed.
Lemma member_step name v sep its index t q : items_to_values unpod (TMember name v sep its) index t q =
  ('(value, q) <- value v q ;; items_to_values unpod its index (if is_nil value then t else dict_set t (VStr name) value) q)%res.
Proof. reflexivity. Qed.
Lemma index_step k v sep its index t q : items_to_values unpod (TIndex k v sep its) index t q =
  ('(key, q) <- value k q ;; '(value, q) <- value v q ;;
   t <- (if is_nil key || is_nil value then Ok t else if hashable key then Ok (dict_set t key value) else Err EType) ;;
   items_to_values unpod its index t q)%res.
Proof. reflexivity. Qed.
Lemma vmap_nil v : v <> VNil -> is_nil (vmap v) = false.
Proof. destruct v; cbn; congruence. Qed.
Lemma index_key index k : 1 <= index -> key_shape k -> is_index index k = true -> k = VInt index.
Proof.
  clear. intros L S I. unfold is_index in I. destruct k as [|b|z| |s|u|t]; try contradiction S; cbn [number_of] in I; try discriminate I.
  - cbn in S. subst b. apply Z.eqb_eq in I. cbn in I. lia.
  - apply Z.eqb_eq in I. now subst z.
Qed.

Lemma tree_value :
  (forall v, storable same v -> good v -> forall q, value (tree v) (kept v ++ q) = Ok (vmap v, q)) /\
  (forall t, storable_entries same t -> good_e t -> forall index acc q, 1 <= index ->
     Forall (fun k => Forall (fun k' => key_eqb k' (vmap k) = false) (keys acc)) (keys t) ->
     items_to_values unpod (titems index t) index acc (kept_entries t ++ q) = Ok (eapp acc (emap t), q)).
Proof.
  apply pod_entries_ind.
  - reflexivity.
  - now intros [|] _ _ q.
  - intros z S _ q. now apply int_value.
  - intros [].
  - intros s _ G q. now apply str_value.
  - intros u S G q. now apply user_value.
  - intros t IH S G q. change (tree (VTable t)) with (Table (titems 1 t)). rewrite table_value. change (kept (VTable t)) with (kept_entries t).
    rewrite (IH S G 1 ENil q); [reflexivity|lia|]. apply Forall_forall. intros k _. constructor.
  - intros _ _ index acc q _ _. cbn. now rewrite eapp_nil.
  - intros k IHk v IHv t IHt (Sk & Sv & Nv & Kk & Ck & St) (Gk & Gv & Gt) index acc q L D. rewrite titems_cons, kept_cons, <- !app_assoc.
    cbn [keys] in D. apply Forall_cons_iff in D as (Dk & Dt).
    assert (Kt : Forall key_shape (keys t)).
    { clear -St. induction t as [|k v t IH]; [constructor|]. destruct St as (_ & _ & _ & K & _ & St). cbn [keys]. constructor; [exact K|now apply IH]. }
    assert (GK : Forall good (keys t)).
    { clear -Gt. induction t as [|k v t IH]; [constructor|]. destruct Gt as (G & _ & Gt). cbn [keys]. constructor; [exact G|now apply IH]. }
    assert (D' : forall w, Forall (fun x => Forall (fun k' => key_eqb k' (vmap x) = false) (keys (eapp acc (ECons (vmap k) w ENil)))) (keys t)).
    { intros w. rewrite Forall_forall in Dt, Ck, Kt, GK |- *. intros x Ix. rewrite keys_app. apply Forall_app. split; [now apply Dt|]. constructor; [|constructor].
      apply keys_apart; auto. }
    assert (Es : forall w, dict_set acc (vmap k) w = eapp acc (ECons (vmap k) w ENil)) by (intros w; now apply dict_set_new).
    destruct (is_index index k) eqn:I.
    + pose proof (index_key index k L Kk I) as ->. cbn [kept app]. rewrite item_step, IHv by assumption. cbn [bind]. rewrite vmap_nil by exact Nv.
      change (VInt index) with (vmap (VInt index)). rewrite Es. rewrite IHt; [|assumption|assumption|lia|apply D']. now rewrite eapp_cons.
    + destruct (ident_key k) as [s|] eqn:Ik.
      * destruct k as [| | | |s'| |]; try discriminate Ik. cbn in Ik. destruct (is_identifier s') eqn:Id; [|discriminate]. injection Ik as ->.
        destruct (ident_word s Id) as (_ & _ & _ & _ & _ & A). cbn [kept app]. rewrite member_step, IHv by assumption. cbn [bind]. rewrite vmap_nil by exact Nv.
        change (vmap (VStr s)) with (VStr (val s)) in Es, D'. rewrite val_ascii in Es, D' by exact A. rewrite Es. rewrite IHt; [|assumption|assumption|lia|apply D'].
        rewrite eapp_cons, emap_cons. change (vmap (VStr s)) with (VStr (val s)). now rewrite val_ascii.
      * rewrite index_step, IHk by assumption. cbn [bind]. rewrite IHv by assumption. cbn [bind]. rewrite (vmap_nil v) by exact Nv.
        rewrite vmap_nil by (destruct k; easy). cbn [orb]. assert (Hh : hashable (vmap k) = true) by (destruct k; easy). rewrite Hh. cbn [bind].
        rewrite Es. rewrite IHt; [|assumption|assumption|lia|apply D']. now rewrite eapp_cons.
Qed.

Lemma print_app_nil e : print e ++ [] = print e.
Proof. apply app_nil_r. Qed.
Lemma tree_toks v : storable same v -> good v -> print (tree v) <> [] /\ existsb is_err (print (tree v)) = false.
Proof.
  intros S G. pose proof (proj1 text_tok v S G [] [] I eq_refl) as T. rewrite !app_nil_r in T. split.
  - destruct v as [|b|z| |s|u|t]; try discriminate; try contradiction S. cbn [tree]. unfold int_tree. now destruct (z <? 0).
  - assert (X : forall rf, grammar Picotron rf (tree v)) by (intros; now apply tree_grammar).
    clear T. assert (K : (forall v, storable same v -> existsb is_err (print (tree v)) = false) /\ (forall t, storable_entries same t -> forall i, existsb is_err (print_items (titems i t)) = false)); [|now apply K].
    clear. apply pod_entries_ind.
    + reflexivity.
    + now intros [|].
    + intros z _. cbn [tree]. unfold int_tree. now destruct (z <? 0).
    + intros [].
    + reflexivity.
    + intros u _. cbn [tree]. unfold user_tree, int_tree. destruct (kd u); [reflexivity|]. destruct (ud_height u =? 0), (ud_width u <? 0), (ud_height u <? 0); reflexivity.
    + intros t IH S. change (print (tree (VTable t))) with (pt "{" :: print_items (titems 1 t) ++ [pt "}"]). cbn [existsb is_err pt orb]. rewrite existsb_app, (IH S). reflexivity.
    + reflexivity.
    + intros k IHk v IHv t IHt (Sk & Sv & _ & _ & _ & St) i. rewrite titems_cons.
      assert (Es : existsb is_err (sep_toks (sep_of t)) = false) by (now destruct t).
      destruct (is_index i k); [|destruct (ident_key k)]; cbn [print_items existsb is_err pt orb]; repeat (rewrite existsb_app || cbn [existsb is_err pt orb]); rewrite ?(IHk Sk), ?(IHv Sv), ?(IHt St), ?Es; reflexivity.
Qed.
Lemma parse_text v : function_reader rf -> storable same v -> good v -> parse_pod rf unpod (ptext k_userdata v) (kept v) = Ok (vmap v).
Proof.
  intros R S G. unfold parse_pod. pose proof (proj1 text_tok v S G [] [] I eq_refl) as T. rewrite !app_nil_r in T. rewrite T. cbn [bind].
  destruct (tree_toks v S G) as (N & E). rewrite E. pose proof (C66_read Picotron rf (tree v) [] R (proj1 (tree_grammar rf) v S G) I) as C. rewrite app_nil_r in C.
  destruct (print (tree v)) as [|x l] eqn:Pr; [easy|]. rewrite C. cbn [bind]. pose proof (proj1 tree_value v S G []) as V. rewrite app_nil_r in V. rewrite V. reflexivity.
Qed.
End Read.
End Core.
