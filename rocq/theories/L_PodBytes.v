(** The bytes of a pod: encoding, kept userdata, compression. *)
From Coq Require Import String List ZArith Lia Bool.
From Verif Require Import M_Base L_Util M_Fold M_Num M_Token M_Str M_Charset M_Text M_Url M_P64 M_Expr M_Lz4 M_Pxu M_Pod S_Num S_Str S_Text S_Token S_Expr S_Pod
  L_Str L_Token L_TextRead L_Url L_P64 L_Pxu L_Luastr L_PodText L_Pod L_PodFmt P_Lz4 P_Pxu.
Import ListNotations.
Open Scope Z_scope.

Lemma last_in (x : list Z) d : x <> [] -> In (last x d) x.
Proof. induction x as [|a [|b x] IH]; [easy|now left|]. intros _. right. now apply IH. Qed.

(** ** A pod's text as pieces *)
Inductive piece := PLit (s : list Z) | PHole | PText (x : list Z).
Definition render (lit : list Z -> list Z) (ph : list Z) (p : piece) : list Z := match p with PLit s => lit s | PHole => ph | PText x => x end.
Section Pieces.
Context (kd : userdata -> bool).
Definition user_pieces (u : userdata) : list piece :=
  if kd u then [PHole]
  else [PText (asc "userdata("); PLit (ud_type u); PText (asc ","); PText (int_text (ud_width u)); PText (asc ",")] ++
    (if ud_height u =? 0 then [] else [PText (int_text (ud_height u)); PText (asc ",")]) ++ [PLit (ud_data u); PText (asc ")")].
Fixpoint pieces (v : pod) : list piece :=
  match v with
  | VNil => [PText (asc "nil")]
  | VBool b => [PText (asc (if b then "true" else "false")%string)]
  | VInt z => [PText (int_text z)]
  | VFloat => []
  | VStr s => [PLit s]
  | VUser u => user_pieces u
  | VTable t => PText (asc "{") :: pieces_e 1 t ++ [PText (asc "}")]
  end
with pieces_e (index : Z) (t : entries) : list piece :=
  match t with
  | ENil => []
  | ECons k v t =>
      (if is_index index k then pieces v
       else match ident_key k with
            | Some s => PText s :: PText (asc "=") :: pieces v
            | None => PText (asc "[") :: pieces k ++ PText (asc "]=") :: pieces v
            end) ++
      match t with ENil => [] | _ => PText (asc ",") :: pieces_e (if is_index index k then index + 1 else index) t end
  end.
Definition all_pieces (lit : list Z -> list Z) (ph : list Z) (ps : list piece) : list Z := concat (map (render lit ph) ps).
Lemma pieces_e_cons index k v t : pieces_e index (ECons k v t) =
      (if is_index index k then pieces v
       else match ident_key k with
            | Some s => PText s :: PText (asc "=") :: pieces v
            | None => PText (asc "[") :: pieces k ++ PText (asc "]=") :: pieces v
            end) ++
      match t with ENil => [] | _ => PText (asc ",") :: pieces_e (if is_index index k then index + 1 else index) t end.
Proof. reflexivity. Qed.
Lemma all_app lit ph a b : all_pieces lit ph (a ++ b) = all_pieces lit ph a ++ all_pieces lit ph b.
Proof. unfold all_pieces. now rewrite map_app, concat_app. Qed.
Lemma all_cons lit ph p b : all_pieces lit ph (p :: b) = render lit ph p ++ all_pieces lit ph b.
Proof. reflexivity. Qed.
Lemma all_nil lit ph : all_pieces lit ph [] = [].
Proof. reflexivity. Qed.
Ltac pcs := repeat (rewrite all_app || rewrite all_cons || rewrite all_nil || rewrite <- app_assoc || rewrite app_nil_r || cbn [render app]).
Lemma pieces_ok lit ph :
  (forall v, ptext lit kd ph v = all_pieces lit ph (pieces v)) /\ (forall t index, etext lit kd ph index t = all_pieces lit ph (pieces_e index t)).
Proof.
  apply pod_entries_ind.
  - reflexivity.
  - intros b. cbn [pieces]. pcs. reflexivity.
  - intros z. cbn [pieces]. pcs. reflexivity.
  - reflexivity.
  - intros s. cbn [pieces]. pcs. reflexivity.
  - intros u. cbn [pieces ptext]. unfold user_pieces, user_text. destruct (kd u); pcs; [reflexivity|].
    destruct (ud_height u =? 0); pcs; reflexivity.
  - intros t IH. change (ptext lit kd ph (VTable t)) with (asc "{" ++ etext lit kd ph 1 t ++ asc "}").
    change (pieces (VTable t)) with (PText (asc "{") :: pieces_e 1 t ++ [PText (asc "}")]). pcs. now rewrite IH.
  - reflexivity.
  - intros k IHk v IHv t IHt index. rewrite etext_cons, pieces_e_cons, IHk, IHv.
    destruct t as [|k' v' t']; [|rewrite IHt]; destruct (is_index index k), (ident_key k); pcs; reflexivity.
Qed.

(** What the pieces of plain text are like. *)
Definition plain_piece (x : list Z) : Prop := x <> [] /\ Forall ascii x /\ ~ In 0 x /\ last x 0 <> 93 /\ esc x = x.
Definition piece_ok (P : list Z -> Prop) (p : piece) : Prop := match p with PLit s => P s | PHole => True | PText x => plain_piece x end.
Lemma no_bracket x : x <> [] -> Forall (fun c => 0 < c < 128 /\ c <> 93) x -> plain_piece x.
Proof.
  intros N F. assert (I93 : ~ In 93 x) by (rewrite Forall_forall in F; intros I; destruct (F _ I); lia). repeat split; [exact N| | | |].
  - apply Forall_impl with (2 := F). unfold ascii. lia.
  - rewrite Forall_forall in F. intros I. destruct (F _ I). lia.
  - intros E. apply I93. rewrite <- E. now apply last_in.
  - now apply esc_none.
Qed.
Lemma int_piece z : keeps_int z -> plain_piece (int_text z).
Proof.
  intros K. destruct (digits_ok z K) as (F & N & _). rewrite int_text_eq.
  assert (F' : Forall (fun c => 0 < c < 128 /\ c <> 93) (digits z)) by (apply Forall_impl with (2 := F); intros a H; apply digit10 in H; lia).
  destruct (z <? 0); apply no_bracket; try easy. constructor; [lia|exact F'].
Qed.
Lemma const_piece s : forallb (fun c => (0 <? c) && (c <? 128) && negb (c =? 93)) s && match s with [] => false | _ => true end = true -> plain_piece s.
Proof.
  intros H. apply andb_prop in H as (H & N). apply no_bracket; [now destruct s|]. apply Forall_forall. intros c I. rewrite forallb_forall in H. specialize (H c I). lia.
Qed.
Ltac cp := solve [apply const_piece; reflexivity].
Context (same : list Z -> list Z -> Prop) (P : list Z -> Prop).
Lemma pieces_good :
  (forall v, storable same v -> all_pod P (fun _ => True) v -> Forall (piece_ok P) (pieces v)) /\
  (forall t, storable_entries same t -> all_entries P (fun _ => True) t -> forall index, Forall (piece_ok P) (pieces_e index t)).
Proof.
  apply pod_entries_ind.
  - intros _ _. constructor; [cp|constructor].
  - intros b _ _. constructor; [destruct b; cp|constructor].
  - intros z S _. constructor; [now apply int_piece|constructor].
  - intros [].
  - intros s _ G. constructor; [exact G|constructor].
  - intros u (K1 & K2) (P1 & P2 & _). cbn [pieces]. unfold user_pieces. destruct (kd u); [constructor; [exact I|constructor]|].
    apply Forall_app. split; [|apply Forall_app; split].
    + constructor; [cp|]. constructor; [exact P1|]. constructor; [cp|]. constructor; [now apply int_piece|]. constructor; [cp|constructor].
    + destruct (ud_height u =? 0); [constructor|]. constructor; [now apply int_piece|]. constructor; [cp|constructor].
    + constructor; [exact P2|]. constructor; [cp|constructor].
  - intros t IH S G. change (pieces (VTable t)) with (PText (asc "{") :: pieces_e 1 t ++ [PText (asc "}")]). constructor; [cp|].
    apply Forall_app. split; [exact (IH S G 1)|]. constructor; [cp|constructor].
  - constructor.
  - intros k IHk v IHv t IHt (Sk & Sv & _ & _ & _ & St) (Gk & Gv & Gt) index. rewrite pieces_e_cons. specialize (IHk Sk Gk). specialize (IHv Sv Gv). apply Forall_app. split.
    + destruct (is_index index k); [exact IHv|]. destruct (ident_key k) as [s|] eqn:Ik.
      * constructor; [|constructor; [cp|exact IHv]]. destruct k as [| | | |s'| |]; try discriminate Ik. cbn in Ik. destruct (is_identifier s') eqn:Q; [|discriminate]. injection Ik as ->.
        destruct (ident_word s Q) as (N & F & _). apply no_bracket; [exact N|]. apply Forall_forall. intros c I. rewrite forallb_forall in F. specialize (F c I). unfold is_ident_char in F. cbn in F. lia.
      * constructor; [cp|]. apply Forall_app. split; [exact IHk|]. constructor; [|exact IHv].
        refine (conj _ (conj _ (conj _ (conj _ eq_refl)))); [easy| |cbn; lia|cbn; lia]. repeat (constructor; [cbn; unfold ascii; lia|]). constructor.
    + destruct t as [|k' v' t']; [constructor|]. constructor; [cp|]. apply IHt; assumption.
Qed.
(** The holes stand for the kept userdata. *)
Fixpoint holes (ps : list piece) : nat := match ps with [] => 0 | PHole :: ps => S (holes ps) | _ :: ps => holes ps end.
Lemma holes_app a b : holes (a ++ b) = (holes a + holes b)%nat.
Proof. induction a as [|[s| |x] a IH]; cbn [app holes]; lia. Qed.
Lemma holes_ok : (forall v, holes (pieces v) = length (kept kd v)) /\ (forall t index, holes (pieces_e index t) = length (kept_entries kd t)).
Proof.
  apply pod_entries_ind; try reflexivity.
  - intros u. cbn [pieces kept]. unfold user_pieces. destruct (kd u); [reflexivity|]. destruct (ud_height u =? 0); reflexivity.
  - intros t IH. change (pieces (VTable t)) with (PText (asc "{") :: pieces_e 1 t ++ [PText (asc "}")]). cbn [holes]. rewrite holes_app, IH. cbn [holes]. 
    change (kept kd (VTable t)) with (kept_entries kd t). lia.
  - intros k IHk v IHv t IHt index. rewrite pieces_e_cons, kept_cons, !app_length, holes_app.
    replace (holes match t with ENil => [] | _ => PText (asc ",") :: pieces_e (if is_index index k then index + 1 else index) t end) with (length (kept_entries kd t))
      by (destruct t as [|k' v' t']; [reflexivity|]; cbn [holes]; now rewrite IHt).
    destruct (is_index index k) eqn:Ix.
    + assert (kept kd k = []) as -> by (destruct k; try discriminate Ix; reflexivity). rewrite IHv. cbn [length]. lia.
    + destruct (ident_key k) as [s|] eqn:Ik.
      * assert (kept kd k = []) as -> by (destruct k; try discriminate Ik; reflexivity). cbn [holes]. rewrite IHv. cbn [length]. lia.
      * cbn [holes]. rewrite holes_app. cbn [holes]. rewrite IHk, IHv. lia.
Qed.
End Pieces.

(** ** Maps on texts, piece by piece *)
Lemma plain_text x : plain_piece x -> text_ok x.
Proof. intros (_ & F & _). now apply ascii_text. Qed.
Definition lit_text (lit : list Z -> list Z) (P : list Z -> Prop) : Prop := forall s, P s -> exists b, lit s = literal b /\ text_ok b.
Lemma pieces_text lit ph (P : list Z -> Prop) ps : lit_text lit P -> Forall ascii ph -> Forall (piece_ok P) ps -> text_ok (all_pieces lit ph ps).
Proof.
  intros L A. induction 1 as [|p ps H _ IH]; [constructor|]. rewrite all_cons. apply text_ok_app. split; [|exact IH].
  destruct p as [s| |x]; cbn [render piece_ok] in *; [|now apply ascii_text|now apply plain_text].
  destruct (L s H) as (b & -> & T). unfold literal. constructor; [unfold char_ok; lia|]. apply text_ok_app. split; [exact T|]. constructor; [unfold char_ok; lia|constructor].
Qed.
Lemma pieces_enc lit ph (P : list Z -> Prop) ps : lit_text lit P -> Forall ascii ph -> Forall (piece_ok P) ps ->
  enc (all_pieces lit ph ps) = all_pieces (fun s => enc (lit s)) ph ps.
Proof.
  intros L A H. pose proof H as H'. induction H' as [|p ps Hp Hps IH]; [reflexivity|]. rewrite !all_cons. inversion H; subst.
  assert (T : text_ok (render lit ph p)).
  { pose proof (pieces_text lit ph P [p] L A ltac:(constructor; [exact Hp|constructor])) as K. unfold all_pieces in K. cbn in K. now rewrite app_nil_r in K. }
  rewrite enc_app; [|exact T|now apply (pieces_text _ _ P)]. rewrite IH by assumption. f_equal.
  destruct p as [s| |x]; cbn [render piece_ok] in *; [reflexivity|now apply enc_ascii|]. apply enc_ascii. now destruct Hp as (_ & ? & _).
Qed.
Lemma pieces_apart lit ph (P : list Z -> Prop) ps : (forall s, P s -> exists b, lit s = literal b) -> apart ph -> ph <> [] -> Forall (piece_ok P) ps -> apart (all_pieces lit ph ps).
Proof.
  intros L A N. induction 1 as [|p ps H _ IH]; [exact I|]. rewrite all_cons. destruct p as [s| |x]; cbn [render piece_ok] in *.
  - destruct (L s H) as (b & ->). cbn. lia.
  - destruct ph; [easy|exact A].
  - destruct H as (Nx & F & _). destruct x as [|c x]; [easy|]. inversion F; subst. cbn. unfold ascii in *. lia.
Qed.
Lemma pieces_dec lit ph (P : list Z -> Prop) ps : (forall s, P s -> exists b, lit s = literal b) -> Forall ascii ph -> ph <> [] -> Forall (piece_ok P) ps ->
  decode_luastr (all_pieces lit ph ps) = all_pieces (fun s => decode_luastr (lit s)) ph ps.
Proof.
  intros L A N. induction 1 as [|p ps H Hps IH]; [reflexivity|]. rewrite !all_cons. rewrite decode_app.
  - rewrite IH. f_equal. destruct p as [s| |x]; cbn [render piece_ok] in *; [reflexivity|now apply decode_asciis_all|]. apply decode_asciis_all. now destruct H as (_ & ? & _).
  - apply (pieces_apart _ _ P); auto. destruct ph; [easy|]. inversion A; subst. cbn. unfold ascii in *. lia.
Qed.
Lemma closed_literal b : closed (literal b).
Proof. split; [easy|]. unfold literal. change (34 :: b ++ [34]) with ((34 :: b) ++ [34]). rewrite last_last. lia. Qed.
Lemma closed_piece x : plain_piece x -> closed x.
Proof. intros (N & _ & _ & L & _). now split. Qed.
Lemma pieces_esc lit ph (P : list Z -> Prop) ps : (forall s, P s -> exists b, lit s = literal b) -> closed ph -> esc ph = ph -> Forall (piece_ok P) ps ->
  esc (all_pieces lit ph ps) = all_pieces (fun s => esc (lit s)) ph ps.
Proof.
  intros L A N. induction 1 as [|p ps H Hps IH]; [reflexivity|]. rewrite !all_cons. rewrite esc_app.
  - rewrite IH. f_equal. destruct p as [s| |x]; cbn [render piece_ok] in *; [reflexivity|exact N|]. now destruct H as (_ & _ & _ & _ & ?).
  - destruct p as [s| |x]; cbn [render piece_ok] in *; [|exact A|now apply closed_piece]. destruct (L s H) as (b & ->). apply closed_literal.
Qed.

(** ** Kept userdata *)
Fixpoint splice (lit : list Z -> list Z) (ps : list piece) (blobs : list (list Z)) : list Z :=
  match ps with
  | [] => []
  | PHole :: ps => match blobs with d :: blobs => d ++ splice lit ps blobs | [] => [] end
  | p :: ps => render lit [] p ++ splice lit ps blobs
  end.
Lemma find_zero x b : ~ In 0 x -> find_sub [0] (x ++ 0 :: b) = Some (x, b).
Proof.
  induction x as [|c x IH]; intros N; [apply (find_sub_here [0])|]. rewrite find_sub_eq. cbn [app]. cbn [In] in N.
  replace (is_prefix [0] (c :: x ++ 0 :: b)) with false; [rewrite IH by tauto; reflexivity|]. unfold is_prefix. cbn -[Z.eqb]. destruct (Z.eqb_spec 0 c); [subst; tauto|reflexivity].
Qed.
Section Splice.
Context (lit : list Z -> list Z) (P : list Z -> Prop) (lit0 : forall s, P s -> ~ In 0 (lit s)).
Lemma render_zero p ph : piece_ok P p -> p <> PHole -> ~ In 0 (render lit ph p).
Proof. destruct p as [s| |x]; cbn; intros H N; [now apply lit0|easy|]. now destruct H as (_ & _ & ? & _). Qed.
Lemma put_ok ps : Forall (piece_ok P) ps -> forall pre mid blobs, ~ In 0 mid -> holes ps = length blobs ->
  put_pxus (length pre) (pre ++ mid ++ all_pieces lit [0] ps) blobs = Ok (pre ++ mid ++ splice lit ps blobs).
Proof.
  induction 1 as [|p ps H Hps IH]; intros pre mid blobs N L.
  - destruct blobs; [|discriminate]. reflexivity.
  - rewrite all_cons. destruct p as [s| |x].
    + cbn [splice holes] in *. rewrite (app_assoc mid). rewrite IH; [now rewrite <- app_assoc| |exact L]. rewrite in_app_iff. pose proof (render_zero (PLit s) [0] H ltac:(easy)). tauto.
    + destruct blobs as [|d blobs]; [discriminate|]. cbn [render put_pxus splice holes] in *. rewrite skipn_app, skipn_all, Nat.sub_diag. cbn [app skipn]. rewrite find_zero by exact N.
      rewrite firstn_app, firstn_all, Nat.sub_diag. cbn [firstn]. rewrite app_nil_r. 
      replace (length (pre ++ mid) + length d)%nat with (length (pre ++ mid ++ d)) by (rewrite !app_length; lia).
      specialize (IH (pre ++ mid ++ d) [] blobs ltac:(easy) ltac:(cbn in L; lia)). cbn [app] in IH. repeat rewrite <- app_assoc in IH. repeat rewrite <- app_assoc. exact IH.
    + cbn [splice holes] in *. rewrite (app_assoc mid). rewrite IH; [now rewrite <- app_assoc| |exact L]. rewrite in_app_iff. pose proof (render_zero (PText x) [0] H ltac:(easy)). tauto.
Qed.
Lemma prefix_zero x r : ~ In 0 x -> (x <> []) -> (exists r', r = k_pxu_prefix ++ r') \/ r = [] -> is_prefix k_pxu_prefix (x ++ r) = false.
Proof.
  intros N Ne R. destruct (is_prefix k_pxu_prefix (x ++ r)) eqn:E; [|reflexivity]. exfalso. apply is_prefix_iff in E as (w & E). unfold k_pxu_prefix in E. cbn [app] in E.
  cbn in N. destruct x as [|a [|b [|c [|d x]]]]; [easy| | | |].
  - destruct R as [(r' & ->)| ->]; cbn in E; [|discriminate]. injection E as -> E. discriminate E.
  - destruct R as [(r' & ->)| ->]; cbn in E; [|discriminate]. injection E as -> -> E. discriminate E.
  - destruct R as [(r' & ->)| ->]; cbn in E; [|discriminate]. injection E as -> -> -> E. discriminate E.
  - cbn in E. injection E as -> -> -> -> E. apply N. cbn. auto.
Qed.
Lemma find_pxu x r : ~ In 0 x -> find_sub k_pxu_prefix (x ++ k_pxu_prefix ++ r) = Some (x, r).
Proof.
  induction x as [|c x IH]; intros N; [apply (find_sub_here k_pxu_prefix)|]. rewrite find_sub_eq, prefix_zero; [|exact N|easy|left; now exists r]. cbn [app]. rewrite IH; [reflexivity|]. cbn in N. tauto.
Qed.
Lemma find_none x : ~ In 0 x -> find_sub k_pxu_prefix x = None.
Proof.
  induction x as [|c x IH]; intros N; [reflexivity|]. rewrite find_sub_eq. pose proof (prefix_zero (c :: x) [] N ltac:(easy) ltac:(now right)) as E. rewrite app_nil_r in E. rewrite E.
  rewrite IH; [reflexivity|]. cbn in N. tauto.
Qed.
Lemma unpack_ok ps : Forall (piece_ok P) ps -> forall blobs us, holes ps = length us ->
  Forall2 (fun u d => (exists r, d = k_pxu_prefix ++ r) /\ forall pre post, read_pxu (pre ++ d ++ post) (length pre) = Ok (u, (length pre + length d)%nat)) us blobs ->
  forall fuel pre mid acc, ~ In 0 mid -> (length us <= fuel)%nat ->
  unpack_pxus fuel (pre ++ mid ++ splice lit ps blobs) (length pre) acc = Ok (pre ++ mid ++ all_pieces lit k_userdata ps, acc ++ us).
Proof.
  induction 1 as [|p ps H Hps IH]; intros blobs us' L F fuel pre mid acc N Fu.
  - destruct us'; [|discriminate]. cbn [splice]. rewrite all_nil, !app_nil_r.
    assert (X : find_sub k_pxu_prefix (skipn (length pre) (pre ++ mid)) = None) by (rewrite skipn_app, skipn_all, Nat.sub_diag; now apply find_none).
    destruct fuel; cbn [unpack_pxus]; rewrite X; reflexivity.
  - rewrite all_cons. destruct p as [s| |x].
    + cbn [splice holes] in *. rewrite (app_assoc mid). rewrite IH with (us := us'); auto; [now rewrite <- app_assoc|]. rewrite in_app_iff. pose proof (render_zero (PLit s) [] H ltac:(easy)). tauto.
    + destruct F as [|u d us' blobs ((r & Ed) & R) F]; [discriminate|]. destruct fuel as [|fuel]; [cbn in Fu; lia|]. cbn [splice holes render] in *. cbn [unpack_pxus].
      rewrite skipn_app, skipn_all, Nat.sub_diag. cbn [app skipn]. rewrite Ed at 1. rewrite <- app_assoc, find_pxu by exact N.
      replace (length pre + length mid)%nat with (length (pre ++ mid)) by (rewrite app_length; lia). rewrite (app_assoc pre mid).
      rewrite R. cbn [bind].
      replace (firstn (length (pre ++ mid)) ((pre ++ mid) ++ d ++ splice lit ps blobs)) with (pre ++ mid) by (now rewrite firstn_app, firstn_all, Nat.sub_diag; cbn [firstn]; rewrite app_nil_r).
      replace (skipn (length (pre ++ mid) + length d) ((pre ++ mid) ++ d ++ splice lit ps blobs)) with (splice lit ps blobs).
      2:{ rewrite (app_assoc (pre ++ mid)), <- app_length, skipn_app, skipn_all, Nat.sub_diag. reflexivity. }
      rewrite (IH blobs us' ltac:(cbn in L; lia) F fuel (pre ++ mid) k_userdata (acc ++ [u])); [|cbn; lia|cbn in Fu; lia]. now rewrite <- !app_assoc.
    + cbn [splice holes] in *. rewrite (app_assoc mid). rewrite IH with (us := us'); auto; [now rewrite <- app_assoc|]. rewrite in_app_iff. pose proof (render_zero (PText x) [] H ltac:(easy)). tauto.
Qed.
End Splice.
