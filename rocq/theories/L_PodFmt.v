(** What [format_pod] prints, and what the ways of storing pods do to it. *)
From Coq Require Import String List ZArith Lia Bool.
From Verif Require Import M_Base L_Util M_Fold M_Num M_Token M_Str M_Charset M_Expr M_Pxu M_Pod S_Num S_Str S_Token S_Expr S_Pod L_Str L_Token L_Luastr L_PodText L_Pod.
Import ListNotations.
Open Scope Z_scope.

Section Format.
Context (isdigit : Z -> bool) (handler : userdata -> list Z -> res (option (list Z))).
Definition plit (s : list Z) : list Z := literal (body isdigit s).
Definition keep (u : userdata) : bool := match handler u (user_text plit u) with Ok (Some _) => true | _ => false end.
Definition blob (u : userdata) : list Z := match handler u (user_text plit u) with Ok (Some b) => b | _ => [] end.
Definition handled (u : userdata) : Prop := exists h, handler u (user_text plit u) = Ok h.

Lemma format_user_eq u : keeps_int (ud_width u) -> keeps_int (ud_height u) -> format_user isdigit u = Ok (user_text plit u).
Proof.
  intros K1 K2. unfold format_user, user_text. rewrite !format_str_eq, !format_int_eq by assumption. cbn [bind].
  destruct (ud_height u =? 0); cbn [join]; unfold plit; rewrite <- !app_assoc; reflexivity.
Qed.
Lemma format_entries_cons index k v t : format_entries isdigit handler index (ECons k v t) =
  (if is_index index k then
     '(part, kept) <- format_pod isdigit handler v ;;
     '(parts, kept') <- format_entries isdigit handler (index + 1) t ;;
     Ok (part :: parts, kept ++ kept')
   else
     '(part, kept) <-
       match ident_key k with
       | Some s => '(value, kept) <- format_pod isdigit handler v ;; Ok (s ++ asc "=" ++ value, kept)
       | None =>
           '(key, kept) <- format_pod isdigit handler k ;;
           '(value, kept') <- format_pod isdigit handler v ;;
           Ok (asc "[" ++ key ++ asc "]=" ++ value, kept ++ kept')
       end ;;
     '(parts, kept') <- format_entries isdigit handler index t ;;
     Ok (part :: parts, kept ++ kept'))%res.
Proof. reflexivity. Qed.

Context (same : list Z -> list Z -> Prop).
Notation fine := (all_pod (fun _ => True) handled).
Notation fine_e := (all_entries (fun _ => True) handled).
Lemma format_ok :
  (forall v, storable same v -> fine v -> format_pod isdigit handler v = Ok (ptext plit keep [0] v, map blob (kept keep v))) /\
  (forall t, storable_entries same t -> fine_e t -> forall index, 1 <= index -> exists parts,
     format_entries isdigit handler index t = Ok (parts, map blob (kept_entries keep t)) /\
     join (asc ",") parts = etext plit keep [0] index t /\ (parts = [] <-> t = ENil)).
Proof.
  apply pod_entries_ind.
  - reflexivity.
  - reflexivity.
  - intros z S _. change (Ok (format_int z, @nil (list Z)) = Ok (int_text z, [])). now rewrite format_int_eq.
  - intros [].
  - intros s _ _. reflexivity.
  - intros u (K1 & K2) (_ & _ & h & Hh). cbn [format_pod ptext kept]. rewrite format_user_eq by assumption. cbn [bind]. unfold keep, blob. rewrite Hh. cbn [bind].
    destruct h; [|reflexivity]. cbn [map]. now rewrite Hh.
  - intros t IH S G. destruct (IH S G 1 ltac:(lia)) as (parts & E & J & _).
    change (format_pod isdigit handler (VTable t)) with ('(parts, kept) <- format_entries isdigit handler 1 t ;; Ok (asc "{" ++ join (asc ",") parts ++ asc "}", kept))%res.
    rewrite E. cbn [bind]. rewrite J. reflexivity.
  - intros _ _ index _. exists []. repeat split; auto.
  - intros k IHk v IHv t IHt (Sk & Sv & _ & Kk & _ & St) (Gk & Gv & Gt) index L. rewrite format_entries_cons, etext_cons, kept_cons.
    assert (Jn : forall p parts next, join (asc ",") parts = etext plit keep [0] next t -> (parts = [] <-> t = ENil) ->
      join (asc ",") (p :: parts) = p ++ match t with ENil => [] | _ => asc "," ++ etext plit keep [0] next t end).
    { intros p parts next J N. destruct parts as [|q parts].
      - assert (t = ENil) as -> by (now apply N). cbn. now rewrite app_nil_r.
      - destruct t as [|k' v' t']; [exfalso; assert (X : q :: parts = []) by (now apply N); discriminate X|]. rewrite <- J. reflexivity. }
    assert (Ne : forall (p : list Z) parts, p :: parts = [] <-> ECons k v t = ENil) by (intros; split; intros X; discriminate X).
    rewrite IHv by assumption. destruct (is_index index k) eqn:I.
    + pose proof (index_key index k L Kk I) as ->. destruct (IHt St Gt (index + 1) ltac:(lia)) as (parts & E & J & N). rewrite E. cbn [bind kept app].
      eexists. split; [now rewrite map_app|]. split; [now apply Jn|apply Ne].
    + destruct (IHt St Gt index L) as (parts & E & J & N). rewrite E. destruct (ident_key k) as [s|] eqn:Ik.
      * assert (kept keep k = []) as -> by (destruct k; try discriminate Ik; reflexivity). cbn [bind app]. eexists. split; [now rewrite map_app|]. split; [now apply Jn|apply Ne].
      * rewrite IHk by assumption. cbn [bind]. eexists. split; [rewrite !map_app, <- !app_assoc; reflexivity|]. split; [now apply Jn|apply Ne].
Qed.
End Format.

Lemma all_mono (P P' : list Z -> Prop) (Q Q' : userdata -> Prop) : (forall s, P s -> P' s) -> (forall u, P (ud_type u) -> P (ud_data u) -> Q u -> Q' u) ->
  (forall v, all_pod P Q v -> all_pod P' Q' v) /\ (forall t, all_entries P Q t -> all_entries P' Q' t).
Proof.
  intros HP HQ. apply pod_entries_ind; try exact (fun x => x); try (intros; assumption).
  - intros s H. now apply HP.
  - intros u (A & B & C). exact (conj (HP _ A) (conj (HP _ B) (HQ u A B C))).
  - intros t IH H. exact (IH H).
  - intros k IHk v IHv t IHt (A & B & C). exact (conj (IHk A) (conj (IHv B) (IHt C))).
Qed.

(** ** Text *)
Lemma all_true : (forall v, all_pod (fun _ => True) (fun _ => True) v) /\ (forall t, all_entries (fun _ => True) (fun _ => True) t).
Proof. apply pod_entries_ind; easy. Qed.
Lemma no_keep isdigit u : keep isdigit no_handler u = false.
Proof. reflexivity. Qed.
Lemma ptext_ph lit kd ph ph' : (forall u, kd u = false) -> (forall v, ptext lit kd ph v = ptext lit kd ph' v) /\ (forall t i, etext lit kd ph i t = etext lit kd ph' i t).
Proof.
  intros H. apply pod_entries_ind; try reflexivity.
  - intros u. cbn. now rewrite H.
  - intros t IH. change (asc "{" ++ etext lit kd ph 1 t ++ asc "}" = asc "{" ++ etext lit kd ph' 1 t ++ asc "}"). now rewrite IH.
  - intros k IHk v IHv t IHt i. rewrite !etext_cons, IHk, IHv. destruct t as [|k' v' t']; [reflexivity|]. now rewrite IHt.
Qed.
Lemma kept_none kd : (forall u, kd u = false) -> (forall v, kept kd v = []) /\ (forall t, kept_entries kd t = []).
Proof.
  intros H. apply pod_entries_ind; try reflexivity.
  - intros u. cbn. now rewrite H.
  - intros t IH. exact IH.
  - intros k IHk v IHv t IHt. rewrite kept_cons, IHk, IHv, IHt. reflexivity.
Qed.
Lemma vmap_id val : (forall s, val s = s) -> (forall v, vmap val v = v) /\ (forall t, emap val t = t).
Proof.
  intros H. apply pod_entries_ind; try reflexivity.
  - intros s. cbn. now rewrite H.
  - intros [ty w h d]. cbn. unfold umap. cbn. now rewrite !H.
  - intros t IH. change (VTable (emap val t) = VTable t). now rewrite IH.
  - intros k IHk v IHv t IHt. rewrite emap_cons, IHk, IHv, IHt. reflexivity.
Qed.
Lemma text_roundtrip isdigit rf unpod v : (forall c, 0 <= c < 128 -> isdigit c = (48 <=? c) && (c <=? 57)) -> function_reader rf ->
  storable eq v -> exists text, format_pod isdigit no_handler v = Ok (text, []) /\ parse_pod rf unpod text [] = Ok v.
Proof.
  intros D R S. pose proof (no_keep isdigit) as NK. set (kd := keep isdigit no_handler) in *.
  exists (ptext (plit isdigit) kd [0] v). split.
  - rewrite (proj1 (format_ok isdigit no_handler eq) v S).
    + fold kd. now rewrite (proj1 (kept_none kd NK) v).
    + apply (all_mono (fun _ => True) (fun _ => True) (fun _ => True) (handled isdigit no_handler)); [auto| |apply all_true]. intros u _ _ _. now exists None.
  - rewrite (proj1 (ptext_ph _ kd [0] k_userdata NK) v). pose proof (parse_text (plit isdigit) kd (fun s => s) (fun _ => True) (fun _ => True) eq) as T.
    specialize (T ltac:(intros s _; exists (body isdigit s); split; [reflexivity|now apply body_escaped]) ltac:(auto) ltac:(auto) ltac:(auto) rf unpod v R S (proj1 all_true v)).
    rewrite (proj1 (kept_none kd NK) v) in T. rewrite T. now rewrite (proj1 (vmap_id _ (fun s => eq_refl)) v).
Qed.
