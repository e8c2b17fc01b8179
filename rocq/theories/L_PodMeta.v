(** Metadata: its text, and the header of a file. *)
From Coq Require Import String List ZArith Lia Bool Permutation.
From Verif Require Import M_Base L_Util M_Fold M_Num M_Token M_Str M_Charset M_Text M_Url M_P64 M_Expr M_Pxu M_Pod S_Num S_Str S_Text S_Token S_Expr S_Pod
  L_Str L_Token L_TextRead L_Url L_Luastr L_PodText L_Pod L_PodFmt L_PodBytes L_PodPack.
Import ListNotations.
Open Scope Z_scope.

(** ** Brackets *)
Definition no_pair (s : list Z) : Prop := forall x y, s <> x ++ 93 :: 93 :: y.
Lemma no_pair_tail c s : no_pair (c :: s) -> no_pair s.
Proof. intros N x y ->. now apply (N (c :: x) y). Qed.
Lemma find_end x r : no_pair x -> last x 0 <> 93 -> find_sub (asc "]]") (x ++ 93 :: 93 :: r) = Some (x, r).
Proof.
  change (asc "]]") with [93; 93]. induction x as [|c x IH]; intros N L; [apply (find_sub_here [93; 93])|]. rewrite find_sub_eq. cbn [app].
  replace (is_prefix [93; 93] (c :: x ++ 93 :: 93 :: r)) with false.
  - rewrite IH; [reflexivity|now apply no_pair_tail in N|]. destruct x; [cbn; lia|exact L].
  - symmetry. destruct (is_prefix [93; 93] (c :: x ++ 93 :: 93 :: r)) eqn:E; [|reflexivity]. exfalso. apply is_prefix_iff in E as (w & E). destruct x as [|d x].
    + cbn in E, L. injection E as -> _. lia.
    + cbn in E. injection E as -> -> _. now apply (N [] x).
Qed.
Lemma enc_cons c s : char_ok c -> text_ok s -> enc (c :: s) = enc [c] ++ enc s.
Proof. intros C T. change (c :: s) with ([c] ++ s). apply enc_app; [now constructor|exact T]. Qed.
Lemma enc_low c : c < 128 -> char_ok c -> enc [c] = [c].
Proof. intros L (C & _). apply enc_ascii. constructor; [unfold ascii; lia|constructor]. Qed.
Lemma enc_head s c r : text_ok s -> c < 128 -> enc s = c :: r -> exists r', s = c :: r'.
Proof.
  intros T L E. destruct T as [|d s Hd T]; [discriminate|]. rewrite enc_cons in E by assumption. destruct (Z_lt_ge_dec d 128).
  - rewrite enc_low in E by assumption. injection E as -> _. now eexists.
  - destruct (enc_high d ltac:(lia) Hd) as (N & F). destruct (enc [d]) as [|y w]; [easy|]. injection E as -> _. inversion F; subst. lia.
Qed.
Lemma enc_no_pair s : text_ok s -> no_pair s -> no_pair (enc s).
Proof.
  induction 1 as [|c s C T IH]; intros N x y E; [destruct x; discriminate|]. specialize (IH (no_pair_tail _ _ N)). rewrite enc_cons in E by assumption.
  destruct (Z_lt_ge_dec c 128).
  - rewrite enc_low in E by assumption. cbn [app] in E. destruct x as [|d x]; cbn [app] in E; injection E as -> E; [|now apply (IH x y)].
    destruct (enc_head s 93 y T ltac:(lia) E) as (r' & ->). now apply (N [] r').
  - destruct (enc_high c ltac:(lia) C) as (_ & F). revert x E. induction F as [|d w Hd F IHw]; intros x E; [now apply (IH x y)|].
    cbn [app] in E. destruct x as [|e x]; cbn [app] in E; [injection E as -> _; lia|]. injection E as _ E. now apply (IHw x).
Qed.
Lemma closed_app a b : closed b -> closed (a ++ b).
Proof.
  intros (N & L). split; [destruct a; [exact N|easy]|]. induction a as [|c a IH]; [exact L|]. cbn [app]. destruct (a ++ b) eqn:E; [|exact IH]. destruct a; [now subst|discriminate].
Qed.
Lemma pieces_closed lit ph (P : list Z -> Prop) ps : (forall s, P s -> exists b, lit s = literal b) -> closed ph -> Forall (piece_ok P) ps -> ps <> [] -> closed (all_pieces lit ph ps).
Proof.
  intros L C. induction 1 as [|p ps H F IH]; [easy|]. intros _. rewrite all_cons. destruct ps as [|q ps]; [|apply closed_app, IH; easy].
  rewrite all_nil, app_nil_r. destruct p as [s| |x]; cbn [render piece_ok] in *; [|exact C|now apply closed_piece]. destruct (L s H) as (b & ->). apply closed_literal.
Qed.

(** ** Putting an entry first *)
Lemma same_bytes_sym s s' : same_bytes s s' -> same_bytes s' s.
Proof. intros H. now symmetry. Qed.
Lemma clash_sym (same : list Z -> list Z -> Prop) k k' : (forall s s', same s s' -> same s' s) -> clash same k k' -> clash same k' k.
Proof. intros Y. destruct k, k'; cbn; auto; try congruence. intros (A & B & C & D). repeat split; auto. Qed.
Lemma key_str k s : key_eqb k (VStr s) = true -> k = VStr s.
Proof. unfold key_eqb. destruct k; cbn; try discriminate. intros H. apply zeqb_list_true in H. now subst. Qed.
Section First.
Context (same : list Z -> list Z -> Prop) (same_refl : forall s, same s s) (same_sym : forall s s', same s s' -> same s' s).
Lemma del_keys t s : forall k, In k (keys (dict_del t (VStr s))) -> In k (keys t).
Proof. induction t as [|k' v t IH]; [easy|]. cbn [dict_del keys]. intros k. destruct (key_eqb k' (VStr s)); cbn [keys]; [now right|]. intros [<-|H]; [now left|right; auto]. Qed.
Fixpoint storable_list (l : list (pod * pod)) : Prop :=
  match l with
  | [] => True
  | (k, v) :: l => storable same k /\ storable same v /\ v <> VNil /\ match k with VInt _ | VStr _ | VUser _ => True | VBool b => b = false | _ => False end /\
      Forall (fun k' => ~ clash same k k') (map fst l) /\ storable_list l
  end.
Lemma keys_list t : keys t = map fst (to_list t).
Proof. induction t as [|k v t IH]; [reflexivity|]. cbn. now rewrite IH. Qed.
Lemma storable_to_list t : storable_entries same t <-> storable_list (to_list t).
Proof.
  induction t as [|k v t IH]; [easy|]. change (storable_entries same (ECons k v t)) with
   (storable same k /\ storable same v /\ v <> VNil /\ match k with VInt _ | VStr _ | VUser _ => True | VBool b => b = false | _ => False end /\ Forall (fun k' => ~ clash same k k') (keys t) /\ storable_entries same t).
  cbn [to_list storable_list]. now rewrite IH, keys_list.
Qed.
Lemma storable_perm l l' : Permutation l l' -> storable_list l -> storable_list l'.
Proof.
  induction 1 as [|(k, v) l l' Pm IH|(k, v) (k', v') l|l l' l'' _ IH1 _ IH2]; auto.
  - cbn [storable_list]. intros (A & B & C & D & E & F). refine (conj A (conj B (conj C (conj D (conj _ (IH F)))))). 
    apply Permutation_map with (f := fst) in Pm. rewrite Forall_forall in *. intros x I. apply E. apply (Permutation_in x (Permutation_sym Pm) I).
  - cbn [storable_list map fst]. intros (A & B & C & D & E & A' & B' & C' & D' & E' & F). inversion E; subst.
    refine (conj A' (conj B' (conj C' (conj D' (conj _ (conj A (conj B (conj C (conj D (conj _ F)))))))))); [|assumption]. constructor; [|exact E'].
    intros X. apply clash_sym in X; auto.
Qed.
Lemma get_del t s v : dict_get t (VStr s) = Some v -> Permutation (to_list t) ((VStr s, v) :: to_list (dict_del t (VStr s))).
Proof.
  induction t as [|k v' t IH]; [discriminate|]. cbn [dict_get dict_del]. destruct (key_eqb k (VStr s)) eqn:E.
  - intros [= ->]. apply key_str in E. subst. reflexivity.
  - intros H. cbn [to_list]. rewrite (IH H). apply perm_swap.
Qed.
Lemma all_list (P : list Z -> Prop) (Q : userdata -> Prop) t : all_entries P Q t <-> Forall (fun x => all_pod P Q (fst x) /\ all_pod P Q (snd x)) (to_list t).
Proof.
  induction t as [|k v t IH]; [split; [constructor|easy]|]. change (all_entries P Q (ECons k v t)) with (all_pod P Q k /\ all_pod P Q v /\ all_entries P Q t). cbn [to_list].
  rewrite IH. split; [intros (A & B & C); constructor; [now split|exact C]|]. intros H. inversion H; subst. cbn in *. tauto.
Qed.
End First.

(** ** The text of metadata *)
Section Meta.
Context (isdigit : Z -> bool) (D : forall c, 0 <= c < 128 -> isdigit c = (48 <=? c) && (c <=? 57)).
Notation kd := (keep isdigit no_handler).
Notation lit := (plit isdigit).
Definition pod_first (t : entries) : entries :=
  match List.find (fun s => match dict_get t (VStr s) with Some _ => true | None => false end) k_pod_prefix_strs with
  | Some s => match dict_get t (VStr s) with Some v => ECons (VStr s) v (dict_del t (VStr s)) | None => t end
  | None => t
  end.
Lemma pod_first_perm t : reordered t (pod_first t).
Proof.
  unfold reordered, pod_first. destruct (List.find _ _) as [s|]; [|reflexivity]. destruct (dict_get t (VStr s)) as [v|] eqn:E; [|reflexivity]. now apply get_del.
Qed.
Definition meta_pieces (t : entries) : list piece :=
  match List.find (fun s => match dict_get t (VStr s) with Some _ => true | None => false end) k_pod_prefix_strs with
  | Some _ => pieces_e kd 1 (pod_first t)
  | None => PText (asc "pod") :: match t with ENil => [] | _ => PText (asc ",") :: pieces_e kd 1 t end
  end.
Context (t : entries) (S : storable_entries same_bytes t) (G : all_entries text_ok (fun _ => True) t).
Lemma first_storable : storable_entries same_bytes (pod_first t).
Proof. apply storable_to_list. apply (storable_perm same_bytes same_bytes_sym (to_list t)); [apply pod_first_perm|now apply storable_to_list]. Qed.
Lemma first_all : all_entries text_ok (fun _ => True) (pod_first t).
Proof. apply all_list. apply (Permutation_Forall (pod_first_perm t)). now apply all_list. Qed.
Lemma etext_rest k v t' : storable_entries same_bytes (ECons k v t') -> all_entries text_ok (fun _ => True) (ECons k v t') -> etext lit kd [0] 1 (ECons k v t') <> [].
Proof.
  intros (Sk & Sv & _) (Gk & Gv & _). rewrite etext_cons. assert (N : ptext lit kd [0] v <> []).
  { rewrite (proj1 (pieces_ok kd lit [0]) v). pose proof (proj1 (pieces_good kd same_bytes text_ok) v Sv Gv) as F. 
    destruct (pieces_closed lit [0] text_ok (pieces kd v)) as (N & _); auto; [intros s _; now eexists|split; [easy|cbn; lia]|].
    destruct v as [|b|z| |s|u|t1]; try easy. }
  destruct (is_index 1 k).
  - destruct (ptext lit kd [0] v); [easy|discriminate].
  - destruct (ident_key k) as [[|c s]|]; discriminate.
Qed.
Lemma format_table t' : storable_entries same_bytes t' -> format_pod isdigit no_handler (VTable t') = Ok (asc "{" ++ etext lit kd [0] 1 t' ++ asc "}", []).
Proof.
  intros S'. rewrite (proj1 (format_ok isdigit no_handler same_bytes) (VTable t') S').
  - now rewrite (proj1 (kept_none kd (no_keep isdigit)) (VTable t')).
  - apply (proj1 (all_mono (fun _ => True) (fun _ => True) (fun _ => True) (handled isdigit no_handler) (fun _ _ => I) (fun u _ _ _ => ex_intro _ None eq_refl)) (VTable t')). apply all_true.
Qed.
Lemma format_value v : storable same_bytes v -> format_pod isdigit no_handler v = Ok (ptext lit kd [0] v, []).
Proof.
  intros S'. rewrite (proj1 (format_ok isdigit no_handler same_bytes) v S').
  - now rewrite (proj1 (kept_none kd (no_keep isdigit)) v).
  - apply (proj1 (all_mono (fun _ => True) (fun _ => True) (fun _ => True) (handled isdigit no_handler) (fun _ _ => I) (fun u _ _ _ => ex_intro _ None eq_refl)) v). apply all_true.
Qed.
Lemma slice_braces s : slice_ends 1 (asc "{" ++ s ++ asc "}") = s.
Proof.
  clear. unfold slice_ends. change (asc "{" ++ s ++ asc "}") with (123 :: (s ++ [125])). cbn [skipn length]. rewrite app_length. cbn [length].
  replace (Datatypes.S (length s + 1) - 2 * 1)%nat with (length s) by lia. now rewrite firstn_app, firstn_all, Nat.sub_diag, app_nil_r.
Qed.
Lemma format_meta : format_meta_pod isdigit t = Ok (esc (all_pieces lit [0] (meta_pieces t))).
Proof.
  pose proof first_storable as S'. pose proof first_all as G'. unfold format_meta_pod, meta_pieces, pod_first in *. destruct (List.find _ _) as [s|] eqn:Es.
  - apply find_some in Es as (I & Es). destruct (dict_get t (VStr s)) as [v|] eqn:Ev; [|discriminate]. destruct S' as (Sk & Sv & Nv & Kk & C & S'). destruct G' as (_ & Gv & G').
    rewrite (format_value v Sv). cbn [bind]. rewrite (format_table _ S'). cbn [bind]. rewrite slice_braces, escape_meta_eq. f_equal. f_equal.
    rewrite <- (proj2 (pieces_ok kd lit [0])), etext_cons. assert (Id : is_identifier s = true) by (cbn in I; destruct I as [<-|[<-|[]]]; reflexivity).
    change (is_index 1 (VStr s)) with false. cbn [ident_key]. cbv iota. rewrite Id. destruct (dict_del t (VStr s)) as [|k' v' t'].
    + cbn [etext]. now rewrite !app_nil_r.
    + destruct (etext lit kd [0] 1 (ECons k' v' t')) as [|c r] eqn:E; [exfalso; apply (etext_rest k' v' t'); auto|]. rewrite <- !app_assoc. reflexivity.
  - cbn [bind]. rewrite (format_table _ S). cbn [bind]. rewrite slice_braces, escape_meta_eq. f_equal. f_equal. rewrite all_cons. cbn [render].
    destruct t as [|k' v' t'] eqn:Et; [reflexivity|]. rewrite all_cons. cbn [render]. rewrite <- (proj2 (pieces_ok kd lit [0])).
    destruct (etext lit kd [0] 1 (ECons k' v' t')) as [|c r] eqn:E; [exfalso; apply (etext_rest k' v' t'); auto|]. reflexivity.
Qed.
Lemma meta_good : Forall (piece_ok text_ok) (meta_pieces t).
Proof.
  pose proof (proj2 (pieces_good kd same_bytes text_ok)) as Pg. unfold meta_pieces. destruct (List.find _ _); [apply Pg; [apply first_storable|apply first_all]|].
  constructor; [now apply const_piece|]. destruct t eqn:Et; [constructor|]. rewrite <- Et in *. constructor; [now apply const_piece|now apply Pg].
Qed.
Lemma meta_some : meta_pieces t <> [].
Proof.
  unfold meta_pieces, pod_first. destruct (List.find _ _) as [s|] eqn:Es; [|easy]. apply find_some in Es as (I & Es). destruct (dict_get t (VStr s)) as [v|]; [|discriminate].
  rewrite pieces_e_cons. change (is_index 1 (VStr s)) with false. cbn [ident_key]. cbv iota. replace (is_identifier s) with true by (cbn in I; destruct I as [<-|[<-|[]]]; reflexivity). easy.
Qed.
Definition mlit (s : list Z) : list Z := esc (lit s).
Lemma mlit_eq s : mlit s = literal (esc (body isdigit s)).
Proof. apply esc_literal. Qed.
Lemma mlit_text : lit_text mlit text_ok.
Proof.
  intros s T. exists (esc (body isdigit s)). split; [apply mlit_eq|]. apply (escaped_encode (esc (body isdigit s)) s); [|exact T]. apply esc_escaped. now apply body_escaped.
Qed.
Lemma zero_ok : Forall ascii [0] /\ closed [0] /\ esc [0] = [0].
Proof. split; [constructor; [unfold ascii; lia|constructor]|]. split; [|reflexivity]. split; [easy|cbn; lia]. Qed.
Lemma meta_esc : esc (all_pieces lit [0] (meta_pieces t)) = all_pieces mlit [0] (meta_pieces t).
Proof. destruct zero_ok as (_ & C & E). apply (pieces_esc _ _ text_ok); auto; [intros s _; now eexists|apply meta_good]. Qed.
Definition meta_bytes : list Z := enc (all_pieces mlit [0] (meta_pieces t)).
Lemma meta_text_ok : text_ok (all_pieces mlit [0] (meta_pieces t)).
Proof. apply (pieces_text _ _ text_ok); [apply mlit_text|apply zero_ok|apply meta_good]. Qed.
Lemma meta_written : (text <- format_meta_pod isdigit t ;; encode_luastr text)%res = Ok meta_bytes.
Proof. rewrite format_meta, meta_esc. cbn [bind]. apply text_ok_encode, meta_text_ok. Qed.
Lemma meta_enc : meta_bytes = all_pieces (fun s => enc (mlit s)) [0] (meta_pieces t).
Proof. apply (pieces_enc _ _ text_ok); [apply mlit_text|apply zero_ok|apply meta_good]. Qed.
Lemma mlit_enc s : text_ok s -> exists b, enc (mlit s) = literal b.
Proof. intros T. destruct (mlit_text s T) as (b & -> & T'). rewrite enc_literal by exact T'. now eexists. Qed.
Lemma meta_closed : closed meta_bytes.
Proof. rewrite meta_enc. apply (pieces_closed _ _ text_ok); [apply mlit_enc|apply zero_ok|apply meta_good|apply meta_some]. Qed.
Lemma meta_no_pair : no_pair meta_bytes.
Proof. apply enc_no_pair; [apply meta_text_ok|]. rewrite <- meta_esc. intros x y. apply esc_no_pair. Qed.
Lemma meta_starts : exists r, meta_bytes = asc "pod" ++ r.
Proof.
  rewrite meta_enc. unfold meta_pieces, pod_first. destruct (List.find _ _) as [s|] eqn:Es; [|now eexists]. apply find_some in Es as (I & Es). destruct (dict_get t (VStr s)) as [v|]; [|discriminate].
  rewrite pieces_e_cons. change (is_index 1 (VStr s)) with false. cbn [ident_key]. cbv iota. replace (is_identifier s) with true by (cbn in I; destruct I as [<-|[<-|[]]]; reflexivity). cbn [app]. rewrite all_cons. cbn [render].
  cbn in I. destruct I as [<-|[<-|[]]]; eexists; reflexivity.
Qed.
Lemma meta_parse rf unpod : function_reader rf -> parse_meta_pod rf unpod (decode_luastr meta_bytes) = Ok (VTable (emap deco (pod_first t))).
Proof.
  intros R. rewrite meta_enc, (pieces_dec _ _ text_ok); [|apply mlit_enc|apply zero_ok|easy|apply meta_good].
  assert (T : parse_pod rf unpod (asc "{" ++ etext (fun s => deco (mlit s)) kd [0] 1 (pod_first t) ++ asc "}") [] = Ok (VTable (emap deco (pod_first t)))).
  { change (asc "{" ++ etext (fun s => deco (mlit s)) kd [0] 1 (pod_first t) ++ asc "}") with (ptext (fun s => deco (mlit s)) kd [0] (VTable (pod_first t))).
    rewrite (proj1 (ptext_ph _ kd [0] k_userdata (no_keep isdigit))).
    pose proof (parse_text (fun s => deco (mlit s)) kd deco text_ok (fun _ => True) same_bytes) as X. rewrite <- (proj1 (kept_none kd (no_keep isdigit)) (VTable (pod_first t))). apply X; auto.
    - intros s T. exists (deco (esc (body isdigit s))). rewrite mlit_eq. split; [apply deco_literal|apply escaped_deco; [apply esc_escaped; now apply body_escaped|exact T]].
      apply (escaped_encode _ s); [apply esc_escaped; now apply body_escaped|exact T].
    - intros s As. unfold deco. rewrite enc_ascii by exact As. now apply decode_asciis_all.
    - intros s s' T T' E. unfold same_bytes. rewrite <- (enc_deco s), <- (enc_deco s') by assumption. now rewrite E.
    - discriminate.
    - apply first_storable.
    - apply first_all. }
  unfold parse_meta_pod, meta_pieces. change (fun s => decode_luastr (enc (mlit s))) with (fun s => deco (mlit s)).
  destruct (List.find _ _) as [s|] eqn:Es.
  - assert (X : exists c r, all_pieces (fun s => deco (mlit s)) [0] (pieces_e kd 1 (pod_first t)) = asc "pod_" ++ c :: r).
    { unfold pod_first. rewrite Es. apply find_some in Es as (I & Es). destruct (dict_get t (VStr s)) as [v|]; [|discriminate].
      rewrite pieces_e_cons. change (is_index 1 (VStr s)) with false. cbn [ident_key]. cbv iota. replace (is_identifier s) with true by (cbn in I; destruct I as [<-|[<-|[]]]; reflexivity). cbn [app]. rewrite all_cons. cbn [render].
      cbn in I. destruct I as [<-|[<-|[]]]; eexists; eexists; reflexivity. }
    destruct X as (c & r & X). rewrite (proj2 (pieces_ok kd (fun s => deco (mlit s)) [0])), X in T. rewrite X. exact T.
  - rewrite all_cons. cbn [render]. unfold pod_first in *. rewrite Es in *. destruct t as [|k v t'] eqn:Et; [reflexivity|]. rewrite <- Et in *.
    rewrite all_cons, <- (proj2 (pieces_ok kd (fun s => deco (mlit s)) [0])). cbn [render].
    set (e := etext _ _ _ _ _) in *. clearbody e. change (asc "pod" ++ asc "," ++ e) with (112 :: 111 :: 100 :: 44 :: e). 
    change (zeqb_list (112 :: 111 :: 100 :: 44 :: e) (asc "pod")) with false. change (starts_with k_pod_prefix_str (112 :: 111 :: 100 :: 44 :: e)) with true. exact T.
Qed.
End Meta.

(** ** Text made from bytes *)
Lemma decode_text_ok b : bytes_ok b -> text_ok (decode_luastr b).
Proof.
  remember (length b) as n eqn:En. assert (L : (length b <= n)%nat) by lia. clear En. revert b L. induction n as [|n IH]; intros b L B.
  { destruct b; [constructor|cbn in L; lia]. }
  destruct B as [|a s Ha B]; [constructor|]. cbn [length] in L. rewrite decode_cons. destruct (Z.ltb_spec a 128).
  - constructor; [unfold char_ok; lia|]. apply IH; [lia|exact B].
  - destruct (seq8 a s) as [[c k]|] eqn:E.
    + destruct (seq8_range a s c k ltac:(lia) B E). constructor; [unfold char_ok; lia|]. apply IH; [rewrite skipn_length; lia|].
      rewrite <- (firstn_skipn k s) in B. now apply Forall_app in B.
    + constructor; [unfold char_ok; lia|]. apply IH; [lia|exact B].
Qed.
Lemma from_bytes_deco s : from_bytes s -> text_ok s /\ deco s = s.
Proof. intros (b & B & ->). split; [now apply decode_text_ok|]. unfold deco, enc. now rewrite (encode_decode b B). Qed.
Lemma unicode_from_bytes s : unicode s -> from_bytes s.
Proof.
  intros U. assert (T : text_ok s) by (apply Forall_impl with (2 := U); unfold char_ok; lia). exists (enc s). split; [now apply enc_bytes|].
  clear T. induction U as [|c s (C & N) U IH]; [reflexivity|]. assert (T : text_ok s) by (apply Forall_impl with (2 := U); unfold char_ok; lia).
  assert (K : char_ok c) by (unfold char_ok; lia). rewrite enc_cons by assumption.
  assert (E : utf8_encode c = Ok (enc [c])).
  { pose proof (text_ok_encode [c] ltac:(constructor; [exact K|constructor])) as X. cbn [encode_luastr] in X. destruct (utf8_encode c) as [y|]; [|discriminate]. cbn [bind] in X. now rewrite app_nil_r in X. }
  rewrite (decode_char c _ (enc s) E C) by lia. now rewrite <- IH.
Qed.

(** ** Headers *)
Lemma header_prefix data : starts_with k_meta_pod_prefix data = true <-> exists rest, data = header_start ++ rest.
Proof. apply starts_with_iff. Qed.
Lemma headed_find data : headed data -> exists m rest, find_sub k_meta_suffix data = Some (k_meta_prefix ++ m, rest) /\ raw_metadata data = Some m /\ raw_payload data = rest /\
  data = k_meta_prefix ++ m ++ k_meta_suffix ++ rest /\ exists w, m = asc "pod" ++ w.
Proof.
  intros (h & r & E). destruct (find_sub k_meta_suffix data) as [(a, b)|] eqn:F.
  2:{ exfalso. pose proof (proj1 (find_sub_none_iff _ _) F) as N. apply (N (header_start ++ h) r). rewrite E, <- app_assoc. reflexivity. }
  pose proof (find_sub_app _ _ _ _ F) as E'.
  assert (Ha : exists w, a = header_start ++ w).
  { rewrite E in E'. unfold header_start, k_meta_suffix in E'. cbn in E'. 
    destruct a as [|a0 [|a1 [|a2 [|a3 [|a4 [|a5 [|a6 a]]]]]]]; cbn in E'; injection E' as; subst; try discriminate; try lia. now eexists. }
  destruct Ha as (w & Ha). exists (asc "pod" ++ w), b. assert (P : starts_with k_meta_pod_prefix data = true) by (apply header_prefix; exists (h ++ asc "]]" ++ r); exact E).
  unfold raw_metadata, raw_payload. rewrite P, F. refine (conj _ (conj _ (conj eq_refl (conj _ _)))).
  - now rewrite Ha.
  - rewrite Ha. reflexivity.
  - rewrite E', Ha. unfold header_start, k_meta_prefix. now rewrite <- !app_assoc.
  - now eexists.
Qed.
Lemma headless_raw data : headless data -> raw_metadata data = None /\ raw_payload data = data /\ file_is_raw data = true.
Proof.
  intros N. assert (P : starts_with k_meta_pod_prefix data = false) by (destruct (starts_with k_meta_pod_prefix data) eqn:E; [|reflexivity]; exfalso; apply N; now apply header_prefix).
  unfold raw_metadata, raw_payload, file_is_raw. now rewrite P.
Qed.
(** A header put before something else *)
Lemma new_header m r : (exists w, m = asc "pod" ++ w) -> find_sub k_meta_suffix (k_meta_prefix ++ m ++ k_meta_suffix ++ r) = Some (k_meta_prefix ++ m, r) ->
  raw_metadata (k_meta_prefix ++ m ++ k_meta_suffix ++ r) = Some m /\ raw_payload (k_meta_prefix ++ m ++ k_meta_suffix ++ r) = r.
Proof.
  intros (w & ->) F. assert (P : starts_with k_meta_pod_prefix (k_meta_prefix ++ (asc "pod" ++ w) ++ k_meta_suffix ++ r) = true) by (apply header_prefix; rewrite <- app_assoc; now eexists).
  unfold raw_metadata, raw_payload. rewrite P, F. now split.
Qed.
Lemma starts_sep p m c r : ~ In c p -> starts_with p (m ++ c :: r) = starts_with p m.
Proof.
  revert m. induction p as [|d p IH]; intros m N; [now destruct m|]. cbn [In] in N. destruct m as [|e m].
  - cbn [app]. destruct (starts_with (d :: p) (c :: r)) eqn:E; [|reflexivity]. apply starts_with_iff in E as (w & E). injection E as <- _. tauto.
  - cbn [app]. specialize (IH m ltac:(tauto)). 
    destruct (starts_with (d :: p) (e :: m ++ c :: r)) eqn:E, (starts_with (d :: p) (e :: m)) eqn:E'; try reflexivity; exfalso.
    + apply starts_with_iff in E as (w & E). injection E as <- E. assert (X : starts_with p m = true) by (rewrite <- IH; apply starts_with_iff; now exists w).
      apply starts_with_iff in X as (w' & X). rewrite X in E'. rewrite (proj2 (starts_with_iff _ _)) in E' by (now exists w'). discriminate.
    + apply starts_with_iff in E' as (w & E'). injection E' as <- E'. rewrite E' in E. rewrite (proj2 (starts_with_iff _ _)) in E by (exists (w ++ c :: r); now rewrite <- app_assoc). discriminate.
Qed.
Lemma raw_header m r : file_is_raw (k_meta_prefix ++ m ++ k_meta_suffix ++ r) = negb (starts_with k_meta_pod_prefix (k_meta_prefix ++ m)) || starts_with k_meta_pod_raw_prefix (k_meta_prefix ++ m).
Proof.
  unfold file_is_raw. change (k_meta_suffix ++ r) with (93 :: 93 :: r). rewrite app_assoc. rewrite !starts_sep; [reflexivity| |]; cbn; lia.
Qed.
(** the value of [pod_format] *)
Lemma escaped_stop b s : escaped b s -> forall w r r', ~ In 34 w -> ~ In 92 w -> b ++ 34 :: r = w ++ 34 :: r' -> b = w /\ s = w.
Proof.
  induction 1 as [|c b s N _ IH|e c b s H _ IH|b s N _ IH|b s _ IH|b s N _ IH]; intros w r r' N1 N2 E.
  - destruct w as [|x w]; [now split|]. injection E as <- _. cbn in N1. tauto.
  - destruct w as [|x w]; [injection E as -> _; unfold special in N; lia|]. injection E as <- E. cbn [In] in N1, N2. destruct (IH w r r' ltac:(tauto) ltac:(tauto) E) as (-> & ->). now split.
  - destruct w as [|x w]; [discriminate|]. injection E as <- E. cbn [In] in N2. tauto.
  - destruct w as [|x w]; [discriminate|]. injection E as <- E. cbn [In] in N2. tauto.
  - destruct w as [|x w]; [discriminate|]. injection E as <- E. cbn [In] in N2. tauto.
  - destruct w as [|x w]; [discriminate|]. injection E as <- E. cbn [In] in N2. tauto.
Qed.
Lemma enc_inv s : text_ok s -> Forall ascii (enc s) -> s = enc s.
Proof.
  induction 1 as [|c s C T IH]; intros F; [reflexivity|]. rewrite enc_cons in F |- * by assumption. apply Forall_app in F as (F1 & F2). rewrite <- (IH F2).
  destruct (Z_lt_ge_dec c 128); [now rewrite enc_low|]. destruct (enc_high c ltac:(lia) C) as (N & H). destruct (enc [c]) as [|x w]; [easy|]. inversion F1; inversion H; subst. unfold ascii in *. lia.
Qed.
Lemma app_starts (p a b w : list Z) : p ++ w = a ++ b -> (length p <= length a)%nat -> exists w', a = p ++ w'.
Proof.
  intros E L. exists (skipn (length p) a). rewrite <- (firstn_skipn (length p) a) at 1. f_equal. apply (f_equal (firstn (length p))) in E. rewrite !firstn_app in E.
  rewrite firstn_all, Nat.sub_diag in E. cbn [firstn] in E. rewrite app_nil_r in E. replace (length p - length a)%nat with 0%nat in E by lia. cbn [firstn] in E. now rewrite app_nil_r in E.
Qed.
Section RawMeta.
Context (isdigit : Z -> bool) (D : forall c, 0 <= c < 128 -> isdigit c = (48 <=? c) && (c <=? 57)).
Context (t : entries) (S : storable_entries same_bytes t) (G : all_entries text_ok (fun _ => True) t).
Lemma meta_raw : (exists r, meta_bytes isdigit t = asc "pod_format=" ++ [34] ++ asc "raw" ++ [34] ++ r) <-> dict_get t (VStr (asc "pod_format")) = Some (VStr (asc "raw")).
Proof.
  pose proof (first_storable t S) as S'. pose proof (first_all t G) as G'.
  rewrite (meta_enc isdigit D t S G). unfold meta_pieces, pod_first in *. cbn [List.find k_pod_prefix_strs map] in *.
  destruct (dict_get t (VStr (asc "pod_format"))) as [v|] eqn:E1.
  - rewrite E1 in *. rewrite pieces_e_cons. change (is_index 1 (VStr (asc "pod_format"))) with false. cbv iota. change (ident_key (VStr (asc "pod_format"))) with (Some (asc "pod_format")). cbv iota.
    rewrite !all_app, !all_cons. cbn [render].
    set (tail := all_pieces _ _ match dict_del t (VStr (asc "pod_format")) with ENil => [] | _ => _ end). clearbody tail. destruct S' as (_ & Sv & _). destruct G' as (_ & Gv & _). split.
    + intros (r & E). change (asc "pod_format=" ++ [34] ++ asc "raw" ++ [34] ++ r) with (asc "pod_format" ++ asc "=" ++ [34; 114; 97; 119; 34] ++ r) in E. rewrite <- !app_assoc in E.
      apply app_inv_head in E. apply app_inv_head in E. f_equal.
      destruct v as [|b|z| |s|u|t1].
      * discriminate E.
      * destruct b; discriminate E.
      * exfalso. cbn [pieces] in E. rewrite all_cons in E. cbn [render] in E. destruct (digits_ok z Sv) as (Fd & N & _). rewrite int_text_eq in E. destruct (z <? 0); [discriminate E|].
        destruct (digits z); [easy|]. injection E as -> _. inversion Fd; subst. apply digit10 in H1. lia.
      * destruct Sv.
      * cbn [pieces] in E. rewrite all_cons, all_nil, app_nil_r in E. cbn [render] in E. rewrite mlit_eq in E.
        assert (X : escaped (esc (body isdigit s)) s) by (apply esc_escaped; now apply body_escaped). destruct (escaped_encode _ _ X Gv) as (Tb & Xe). rewrite enc_literal in E by exact Tb.
        unfold literal in E. cbn [app] in E. injection E as E. rewrite <- app_assoc in E. cbn [app] in E.
        destruct (escaped_stop _ _ Xe [114; 97; 119] tail r ltac:(cbn; lia) ltac:(cbn; lia) E) as (_ & Es). f_equal. rewrite (enc_inv s Gv); [exact Es|].
        rewrite Es. repeat (constructor; [unfold ascii; lia|]). constructor.
      * discriminate E.
      * discriminate E.
    + intros [= ->]. exists tail. rewrite <- !app_assoc. cbn [pieces]. rewrite all_cons, all_nil, app_nil_r. cbn [render]. rewrite mlit_eq.
      assert (B : body isdigit (asc "raw") = asc "raw").
      { unfold body. cbn -[Z.eqb]. cbn. repeat rewrite D by lia. reflexivity. }
      rewrite B. reflexivity.
  - split; [|discriminate]. intros (r & E). exfalso. destruct (dict_get t (VStr (asc "pod_type"))) as [v|] eqn:E2.
    + rewrite E2, pieces_e_cons in E. change (is_index 1 (VStr (asc "pod_type"))) with false in E. change (ident_key (VStr (asc "pod_type"))) with (Some (asc "pod_type")) in E. cbv iota in E. discriminate E.
    + destruct t; discriminate E.
Qed.
End RawMeta.
