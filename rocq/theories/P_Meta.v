(** C89, C90: reducing the metadata of a Picotron cart, and writing its pods anew. *)
From Coq Require Import String List ZArith Lia Bool Permutation.
From Verif Require Import M_Base L_Util M_Token M_Text M_Expr M_Pod M_Files M_Meta S_Num S_Str S_Text S_Token S_Expr S_Pod S_Files S_Meta L_Files L_Luastr L_PodText L_Pod L_PodFmt L_PodBytes L_PodPack L_PodMeta P_Token P_Text P_Expr P_Pod P_Files L_Meta.
Import ListNotations.
Open Scope Z_scope.

Section Claims.
Context (matcher : list Z -> list Z -> bool) (isdigit : Z -> bool) (int16 : list Z -> option Z) (rf : list tok -> res (list tok * list tok)).
Context (D : ascii_isdigit isdigit) (H16 : hex_reader int16) (R : function_reader rf).

Lemma one_file keep p data depth : meta_file_ok (file_metadata rf depth) data ->
  exists m data' x, file_metadata rf depth data = Ok m /\ meta_file matcher isdigit rf depth keep p data = Ok (data', x) /\
    (x = true <-> called p (asc ".info.pod") /\ none_kept (selects matcher keep) m) /\
    (x = false -> exists m', file_metadata rf depth data' = Ok m' /\ reduced (selects matcher keep) (file_is_raw data) m m' /\
       file_is_raw data' = file_is_raw data /\ raw_payload data' = raw_payload data).
Proof.
  assert (Nn : ~ In 47 (asc ".info.pod")) by (cbn; lia).
  assert (Qq : forall s, glob_matches matcher keep s = true <-> selects matcher keep s) by (intros s; apply C43_matches).
  intros [H|(t & E & (St & Gt & K) & Rg & Hl)].
  - destruct (headless_raw _ H) as (M & P & Rw). exists None, data, (zeqb_list (after_last_slash p) (asc ".info.pod")).
    assert (E : file_metadata rf depth data = Ok None) by (unfold file_metadata; now rewrite M). split; [exact E|]. split; [|split].
    + unfold meta_file, new_metadata. rewrite E. cbn [bind andb]. destruct (zeqb_list _ _); [reflexivity|]. cbn [set_metadata set_raw_metadata bind]. now rewrite P.
    + rewrite called_iff by exact Nn. split; [intros C; split; [exact C|intros t s v; discriminate]|tauto].
    + intros _. exists None. split; [exact E|]. split; [now apply no_metadata|auto].
  - destruct (kept_ok matcher keep t K) as (r & Er & _). destruct (kept_spec matcher keep t St K r Er) as (N & Nr & Ir & Es). exists (Some (VTable t)).
    assert (G' : all_entries text_ok (fun _ => True) t) by (apply (all_mono from_bytes text_ok (fun _ => True) (fun _ => True)); auto; intros s F; now apply from_bytes_deco).
    assert (Nk : none_kept (selects matcher keep) (Some (VTable t)) <-> r = ENil).
    { rewrite N. unfold none_kept. split; intros A t' s v B C q; apply (A t' s v B C); now apply Qq. }
    assert (Sub : forall t', NoDup (to_list t') -> incl (to_list t') (to_list t) -> storable_entries same_bytes t' /\ all_entries from_bytes (fun _ => True) t' /\ all_entries text_ok (fun _ => True) t').
    { intros t' N' I'. split; [|split].
      - apply storable_to_list. apply (storable_incl (to_list t)); auto. now apply storable_to_list.
      - apply all_list. apply all_list in Gt. rewrite Forall_forall in *. auto.
      - apply all_list. apply all_list in G'. rewrite Forall_forall in *. auto. }
    assert (Set' : forall t', NoDup (to_list t') -> incl (to_list t') (to_list t) -> exists data' t'', set_metadata isdigit data (Some t') = Ok data' /\ raw_payload data' = raw_payload data /\
       file_metadata rf depth data' = Ok (Some (VTable t'')) /\ reordered t' t'' /\ (file_is_raw data' = true <-> In (VStr (asc "pod_format"), VStr (asc "raw")) (to_list t'))).
    { intros t' N' I'. destruct (Sub t' N' I') as (S1 & S2 & S3). destruct (C52_metadata isdigit rf D R data t' depth S1 S3) as (data' & _ & _ & W & _ & _ & _ & P).
      destruct (C52_exact isdigit rf D R data t' depth data' S1 S2 W) as (t'' & Ro & M). exists data', t''. split; [exact W|]. split; [exact P|]. split; [exact M|]. split; [exact Ro|].
      now apply (C68_format isdigit D data t' data'). }
    unfold meta_file, new_metadata. rewrite E. cbn [bind]. rewrite Er. cbn [bind]. destruct r as [|k v r].
    + replace (match (if file_is_raw data then None else Some ENil) with None | Some ENil => true | _ => false end) with true by (now destruct (file_is_raw data)). cbn [andb].
      destruct (zeqb_list (after_last_slash p) (asc ".info.pod")) eqn:C; [|assert (C' : ~ called p (asc ".info.pod")) by (rewrite <- called_iff by exact Nn; now rewrite C)].
      * exists data, true. apply called_iff in C; [|exact Nn]. split; [reflexivity|]. split; [reflexivity|]. split; [|discriminate]. rewrite Nk. tauto.
      * destruct (file_is_raw data) eqn:Rw.
        -- destruct (C68_remove isdigit rf data depth (Hl eq_refl)) as (data' & W & -> & P & M). exists (raw_payload data), false. split; [reflexivity|]. rewrite W. split; [reflexivity|]. split; [rewrite Nk; intuition discriminate|].
           intros _. exists None. split; [exact M|]. split; [eapply all_dropped; [reflexivity|now apply Nk|reflexivity]|]. split; [|exact P]. now destruct (headless_raw _ (Hl eq_refl)).
        -- destruct (Set' ENil) as (data' & t'' & W & P & M & Ro & Fr); [constructor|intros x []|]. exists data', false. split; [reflexivity|]. rewrite W. split; [reflexivity|]. split; [rewrite Nk; intuition discriminate|].
           intros _. exists (Some (VTable t'')). split; [exact M|]. apply Permutation_nil in Ro. destruct t''; [|discriminate Ro]. split; [eapply all_emptied; [reflexivity|now apply Nk|reflexivity]|]. split; [|exact P].
           destruct (file_is_raw data'); [|reflexivity]. destruct (proj1 Fr eq_refl).
    + destruct Es as (N2 & I2). destruct (add_required t (ECons k v r)) as [|k2 v2 r2] eqn:A.
      { exfalso. destruct (required t St (ECons k v r) Nr Ir) as (_ & J). rewrite A in J. apply (J (k, v)). left. now left. }
      rewrite <- A in *. cbn [andb]. replace (match add_required t (ECons k v r) with ENil => true | _ => false end) with false by (now rewrite A). cbn [andb].
      destruct (Set' (add_required t (ECons k v r))) as (data' & t'' & W & P & M & Ro & Fr); [exact N2|intros (a, b) H; now apply I2 in H|].
      exists data', false. split; [reflexivity|]. rewrite W. split; [reflexivity|]. split; [rewrite Nk; intuition discriminate|]. intros _. exists (Some (VTable t'')). split; [exact M|]. split.
      * eapply some_kept; [reflexivity|rewrite Nk; discriminate|]. split; [apply (Permutation_NoDup Ro N2)|]. intros a b. transitivity (In (a, b) (to_list (add_required t (ECons k v r)))).
        { split; [apply (Permutation_in _ (Permutation_sym Ro))|apply (Permutation_in _ Ro)]. }
        rewrite I2. split; intros (X & s & Y & Z0); (split; [exact X|]); exists s; (split; [exact Y|]); rewrite Qq in *; exact Z0.
      * split; [|exact P]. assert (Q2 : file_is_raw data' = true <-> file_is_raw data = true).
        { unfold regular in Rg. rewrite Fr, Rg, I2. split; [tauto|]. intros X. split; [exact X|]. eauto. }
        destruct (file_is_raw data'), (file_is_raw data); try reflexivity; [symmetry|]; now apply Q2.
Qed.

(** C89.  The files and their order stay, but for files .info.pod of whose metadata nothing is kept; files that are not selected, and directories, stay as
    they are; those selected keep their contents, and of their metadata the keys to keep and what tells the format. *)
Theorem C89_meta : forall sel keep fs depth, NoDup (map fst fs) ->
  (forall p data, In (p, Some data) fs -> selects matcher sel p -> meta_file_ok (file_metadata rf depth) data) ->
  exists fs', preproc_meta matcher isdigit rf depth sel keep fs = Ok fs' /\
    (exists stays, map fst fs' = filter stays (map fst fs) /\
       forall p, In p (map fst fs) -> (stays p = false <-> selects matcher sel p /\ called p (asc ".info.pod") /\
         exists data m, In (p, Some data) fs /\ file_metadata rf depth data = Ok m /\ none_kept (selects matcher keep) m)) /\
    forall p f, In (p, f) fs -> forall f', In (p, f') fs' ->
      (f = None \/ ~ selects matcher sel p -> f' = f) /\
      (forall data, f = Some data -> selects matcher sel p ->
         exists data' m m', f' = Some data' /\ file_payload rf depth data' = file_payload rf depth data /\ raw_payload data' = raw_payload data /\
           file_metadata rf depth data = Ok m /\ file_metadata rf depth data' = Ok m' /\ reduced (selects matcher keep) (file_is_raw data) m m').
Proof.
  intros sel keep fs depth N Hf.
  set (change := fun (p : list Z) (f f' : option (list Z)) => (f = None \/ ~ selects matcher sel p -> f' = f) /\
      (forall data, f = Some data -> selects matcher sel p -> (called p (asc ".info.pod") /\ exists m, file_metadata rf depth data = Ok m /\ none_kept (selects matcher keep) m) \/
         exists data' m m', f' = Some data' /\ file_payload rf depth data' = file_payload rf depth data /\ raw_payload data' = raw_payload data /\
           file_metadata rf depth data = Ok m /\ file_metadata rf depth data' = Ok m' /\ reduced (selects matcher keep) (file_is_raw data) m m')).
  set (goes := fun (p : list Z) (f : option (list Z)) => selects matcher sel p /\ called p (asc ".info.pod") /\ exists data m, f = Some data /\ file_metadata rf depth data = Ok m /\ none_kept (selects matcher keep) m).
  assert (L : exists fs' dels, meta_loop matcher isdigit rf depth sel keep fs = Ok (fs', dels) /\ Forall2 (fun e e' => fst e = fst e' /\ change (fst e) (snd e) (snd e')) fs fs' /\
     forall p, In p dels <-> exists f, In (p, f) fs /\ goes p f).
  { clear N. induction fs as [|(p, f) fs IH]; [exists [], []; split; [reflexivity|]; split; [constructor|]; intros p; split; [easy|intros (? & [] & _)]|].
    destruct IH as (fs' & dels & E & F2 & Dl); [intros q data I; apply (Hf q data); now right|]. cbn [meta_loop].
    assert (One : exists f' x, meta_entry matcher isdigit rf depth sel keep p f = Ok (f', x) /\ change p f f' /\ (x = true <-> goes p f)).
    { unfold meta_entry, change, goes. destruct f as [data|]; [destruct (glob_matches matcher sel p) eqn:Sl|].
      - apply C43_matches in Sl. destruct (one_file keep p data depth (Hf p data (or_introl eq_refl) Sl)) as (m & data' & x & M & E1 & X & Y). rewrite E1. cbn [bind]. exists (Some data'), x. split; [reflexivity|]. split.
        + split; [intros [?|?]; [discriminate|contradiction]|]. intros d [= <-] _. destruct x; [left; destruct X as (X & _); destruct (X eq_refl); eauto|right]. destruct (Y eq_refl) as (m' & M' & Rd & Rw & P).
          exists data', m, m'. split; [reflexivity|]. split; [|auto]. unfold file_payload. now rewrite Rw, P.
        + rewrite X. split; [intros (A & B); eauto 8|]. intros (_ & A & d & m2 & [= <-] & M2 & B). split; [exact A|]. assert (m2 = m) by congruence. now subst.
      - assert (Sl' : ~ selects matcher sel p) by (rewrite <- C43_matches; now rewrite Sl). eexists _, _. split; [reflexivity|]. split; [split; [reflexivity|intros; contradiction]|]. split; [discriminate|tauto].
      - eexists _, _. split; [reflexivity|]. split; [split; [reflexivity|intros; discriminate]|]. split; [discriminate|intros (_ & _ & d & m & A & _); discriminate A]. }
    destruct One as (f' & x & E1 & Ch & Go). rewrite E1. cbn [bind]. rewrite E. cbn [bind]. eexists _, _. split; [reflexivity|]. split; [constructor; auto|].
    intros q. assert (Q1 : In q (if x then p :: dels else dels) <-> q = p /\ x = true \/ In q dels) by (clear; destruct x; cbn [In]; split; [intros [->|I]; auto|intros [(-> & _)|I]; auto|auto|intros [(_ & X)|I]; [discriminate X|auto]]). rewrite Q1, Go, Dl. cbn [In]. split.
    - intros [(-> & G)|(f0 & I & G)]; [exists f; auto|exists f0; auto].
    - intros (f0 & [[= <- <-]|I] & G); [left; auto|right; eauto]. }
  destruct L as (fs' & dels & E & F2 & Dl). unfold preproc_meta. rewrite E. cbn [bind].
  assert (Nm : map fst fs' = map fst fs) by (clear - F2; induction F2 as [|e e' ? ? (A & _) F2 IH]; [reflexivity|]; cbn [map]; rewrite IH; f_equal; symmetry; exact A).
  assert (N' : NoDup (map fst fs')) by now rewrite Nm. eexists. split; [reflexivity|]. rewrite fold_del by exact N'. split.
  - exists (fun p => negb (existsb (zeqb_list p) dels)). split.
    + rewrite <- Nm. clear. induction fs' as [|e l IH]; [reflexivity|]. cbn [filter map]. destruct (negb _); cbn [map]; now rewrite IH.
    + intros p I. rewrite negb_false_iff, existsb_exists. transitivity (In p dels).
      { split; [intros (y & Iy & Ey); apply zeqb_list_true in Ey; now subst|intros; exists p; split; [assumption|now apply zeqb_list_true]]. }
      rewrite Dl. unfold goes. split.
      * intros (f & If & A & B & data & m & -> & M & K). eauto 8.
      * intros (A & B & data & m & If & M & K). exists (Some data). split; [exact If|]. eauto 8.
  - intros p f I f' I'. apply filter_In in I' as (I' & Nd). cbn [fst] in Nd. apply negb_true_iff in Nd.
    assert (Ch : change p f f').
    { clear - F2 N N' I I'. induction F2 as [|(p1, f1) (p2, f2) l l' (A & B) F2 IH]; [easy|]. cbn [fst snd map] in *. subst p2. inversion N; subst. inversion N'; subst.
      destruct I as [Ei|I], I' as [Ei'|I']; try (injection Ei as -> ->); try (apply pair_equal_spec in Ei' as (Ep & Ef); subst); [exact B| | |now apply IH]; exfalso; [apply (in_map fst) in I'|apply (in_map fst) in I]; contradiction. }
    destruct Ch as (C1 & C2). split; [exact C1|]. intros data -> Sl. destruct (C2 data eq_refl Sl) as [(A & m & M & K)|X]; [|exact X]. exfalso.
    assert (In p dels) by (apply Dl; exists (Some data); split; [exact I|]; split; [exact Sl|]; split; [exact A|]; eauto).
    assert (existsb (zeqb_list p) dels = true) by (apply existsb_exists; exists p; split; [assumption|now apply zeqb_list_true]). congruence.
Qed.

(** C90.  Pods that are written anew, in whatever way, keep their values and metadata; other files stay as they are.  (Compression takes less than 2
    gigabytes.) *)
Theorem C90_repack : forall uncompress base64 need runtime fs depth,
  (forall p data, In (p, Some data) fs -> file_is_raw data = false -> headed data /\ exists v, file_payload rf (S depth) data = Ok (inr v) /\ storable same_bytes v /\ all_pod text_ok pxu_ready v) ->
  let o := pod_options uncompress base64 need runtime in
  (uncompress = false -> need = true -> forall p data v plain, In (p, Some data) fs -> file_payload rf (S depth) data = Ok (inr v) ->
     write_pod isdigit int16 (mkwo false true false runtime) v = Ok plain -> zlen plain < 2 ^ 31 - 1) ->
  exists fs', repack_pods isdigit int16 rf (S depth) o fs = Ok fs' /\
    Forall2 (fun e e' => fst e = fst e' /\ match snd e, snd e' with
      | Some data, Some data' => if file_is_raw data then data' = data else
          file_is_raw data' = false /\ file_metadata rf depth data' = file_metadata rf depth data /\
          exists v v', file_payload rf (S depth) data = Ok (inr v) /\ file_payload rf (S depth) data' = Ok (inr v') /\ same_pod same_bytes v v'
      | None, None => True
      | _, _ => False end) fs fs'.
Proof.
  intros un b64 need runtime fs depth H o W. induction fs as [|(p, f) fs IH]; [exists []; split; [reflexivity|constructor]|].
  destruct IH as (fs' & E & F); [intros q d I; apply (H q d); now right|intros A B q d v pl I; apply (W A B q d v pl); now right|]. cbn [repack_pods].
  destruct f as [data|]; [destruct (file_is_raw data) eqn:Rw|].
  - cbn [bind]. rewrite E. cbn [bind]. eexists. split; [reflexivity|]. constructor; [|exact F]. cbn [fst snd]. now rewrite Rw.
  - destruct (H p data (or_introl eq_refl) Rw) as (Hd & v & Ev & S1 & S2). 
    assert (Wb : exists bytes, write_pod isdigit int16 o v = Ok bytes).
    { unfold o, pod_options in *. destruct un; [|destruct need].
      - destruct (C67_roundtrip isdigit int16 rf D H16 R v false runtime S1 S2) as (pl & _ & X). destruct (X false b64 (or_introl eq_refl)) as (bytes & _ & Y & _). eauto.
      - destruct (C67_roundtrip isdigit int16 rf D H16 R v true runtime S1 S2) as (pl & Pl & X). destruct (X true b64) as (bytes & _ & Y & _); [|eauto]. right. apply (W eq_refl eq_refl p data v pl); auto. now left.
      - destruct (C67_roundtrip isdigit int16 rf D H16 R v true runtime S1 S2) as (pl & _ & X). destruct (X false b64 (or_introl eq_refl)) as (bytes & _ & Y & _). eauto. }
    destruct Wb as (bytes & Wb). rewrite Ev. cbn [bind].
    destruct (C68_pod isdigit int16 rf D H16 R o data v bytes depth depth Hd Rw S1 S2 Wb) as (data' & v' & E1 & E2 & Sm & M & Mt). rewrite E1. cbn [bind]. rewrite E. cbn [bind].
    eexists. split; [reflexivity|]. constructor; [|exact F]. cbn [fst snd]. rewrite Rw. split; [reflexivity|]. split; [|split; [exact Mt|eauto]].
    unfold file_payload in E2. destruct (file_is_raw data'); [discriminate E2|reflexivity].
  - cbn [bind]. rewrite E. cbn [bind]. eexists. split; [reflexivity|]. now constructor.
Qed.
End Claims.

(** A case: a raw file of which one key is kept, a pod of which none is, a file without metadata, and a file .info.pod that goes. *)
Definition same_name (q p : list Z) : bool := zeqb_list q [42] || zeqb_list q p.
Definition ex_files : @files (list Z) :=
  [(asc "a", Some (asc "--[[pod_format=" ++ [34] ++ asc "raw" ++ [34] ++ asc ",x=1,y=2]]--code"));
   (asc "b", Some (asc "--[[pod,x=1]]{5}")); (asc "c", Some (asc "hello")); (asc "d/", None); (asc "d/.info.pod", Some (asc "--[[pod,x=1]]"))].
Example C89_case : NoDup (map fst ex_files) /\
  (forall p data, In (p, Some data) ex_files -> selects same_name [[42]] p -> meta_file_ok (file_metadata ex_function 1) data) /\
  preproc_meta same_name ex_isdigit ex_function 1 [[42]] [asc "y"] ex_files =
    Ok [(asc "a", Some (asc "--[[pod_format=" ++ [34] ++ asc "raw" ++ [34] ++ asc ",y=2]]--code")); (asc "b", Some (asc "--[[pod]]{5}")); (asc "c", Some (asc "hello")); (asc "d/", None)].
Proof.
  split; [|split].
  - unfold ex_files. cbn [map fst]. repeat constructor; cbn; intuition discriminate.
  - intros p data I _. unfold ex_files in I. cbn [In] in I.
    assert (Px : forall r, file_metadata ex_function 1 (asc "--[[pod,x=1]]" ++ r) = Ok (Some (VTable (ECons (VStr (asc "x")) (VInt 1) ENil))) ->
      exists t, file_metadata ex_function 1 (asc "--[[pod,x=1]]" ++ r) = Ok (Some (VTable t)) /\ meta_table t /\ regular (asc "--[[pod,x=1]]" ++ r) t /\
        (file_is_raw (asc "--[[pod,x=1]]" ++ r) = true -> headless (raw_payload (asc "--[[pod,x=1]]" ++ r)))).
    { intros r E. eexists. split; [exact E|]. split; [|split].
      - split; [|split]; [cbn [storable storable_entries keys]; unfold keeps_int; repeat split; try lia; try discriminate; keys_differ| |repeat (constructor; [eauto|]); constructor].
        cbn [all_entries all_pod]. repeat (first [now apply ex_text | exact Logic.I | apply conj]).
      - split; [discriminate|]. intros [E1|[]]. discriminate E1.
      - discriminate. }
    destruct I as [[= <- <-]|[[= <- <-]|[[= <- <-]|[I|[[= <- <-]|[]]]]]]; [right| right|left; intros (r & E); discriminate E|discriminate I|right].
    + exists (ECons (VStr (asc "pod_format")) (VStr (asc "raw")) (ECons (VStr (asc "x")) (VInt 1) (ECons (VStr (asc "y")) (VInt 2) ENil))). split; [vm_compute; reflexivity|]. split; [|split].
      * split; [|split]; [cbn [storable storable_entries keys]; unfold keeps_int; repeat split; try lia; try discriminate; keys_differ| |repeat (constructor; [eauto|]); constructor].
        cbn [all_entries all_pod]. repeat (first [now apply ex_text | exact Logic.I | apply conj]).
      * split; [intros _; now left|reflexivity].
      * intros _ (r & E). discriminate E.
    + apply (Px (asc "{5}")). vm_compute. reflexivity.
    + apply (Px []). vm_compute. reflexivity.
  - vm_compute. reflexivity.
Qed.

Example C90_case : let data := asc "--[[pod,x=1]]{5}" in
  headed data /\ file_is_raw data = false /\ file_payload ex_function 1 data = Ok (inr (VTable (ECons (VInt 1) (VInt 5) ENil))) /\
  storable same_bytes (VTable (ECons (VInt 1) (VInt 5) ENil)) /\ all_pod text_ok pxu_ready (VTable (ECons (VInt 1) (VInt 5) ENil)) /\
  repack_pods ex_isdigit (ascii_int 16) ex_function 1 (pod_options false true true 21) [(asc "b", Some data)] = Ok [(asc "b", Some (asc "--[[pod,x=1]]b64:ezV9"))].
Proof.
  cbv zeta. split; [now exists (asc ",x=1"), (asc "{5}")|]. split; [reflexivity|]. split; [vm_compute; reflexivity|]. split; [|split; [|vm_compute; reflexivity]].
  - cbn [storable storable_entries keys]. unfold keeps_int. repeat split; try lia; try discriminate. constructor.
  - cbn. tauto.
Qed.

(** Metadata with a key that is not a string stops the whole command. *)
Theorem C89_key_refuted : forall matcher isdigit, matcher [42] (asc "a") = true ->
  preproc_meta matcher isdigit ex_function 1 [[42]] [asc "y"] [(asc "a", Some (asc "--[[pod,5]]{}"))] = Err EType.
Proof. intros m d E. unfold preproc_meta. cbn [meta_loop meta_entry]. unfold glob_matches. cbn [map glob_regex glob_loop]. rewrite E. reflexivity. Qed.
(** A header that tells the format of raw files, but not first, does not count as raw; written anew, it does. *)
Theorem C89_regular_refuted : exists data data', preproc_meta same_name ex_isdigit ex_function 1 [[42]] [asc "y"] [(asc "a", Some data)] = Ok [(asc "a", Some data')] /\
  file_payload ex_function 1 data = Ok (inr (VInt 5)) /\ file_payload ex_function 1 data' = Ok (inl (asc "5")).
Proof. exists (asc "--[[pod,pod_format=" ++ [34] ++ asc "raw" ++ [34] ++ asc ",y=2]]5"). eexists. split; [vm_compute; reflexivity|]. split; vm_compute; reflexivity. Qed.

Print Assumptions C89_meta.
Print Assumptions C90_repack.
Print Assumptions C89_key_refuted.
Print Assumptions C89_regular_refuted.
