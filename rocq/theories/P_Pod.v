(** Pods: Picotron's values as text and as bytes, and the headers of files. *)
From Coq Require Import String List ZArith Lia Bool Permutation.
From Verif Require Import M_Base L_Util M_Fold M_Num M_Token M_Str M_Charset M_Text M_Url M_P64 M_Expr M_Lz4 M_Pxu M_Pod S_Num S_Str S_Text S_Token S_Expr S_Pod
  L_Str L_Token L_TextRead L_Luastr L_PodText L_Pod L_PodFmt L_PodBytes L_PodPack L_PodMeta P_Token P_Text P_Expr.
Import ListNotations.
Open Scope Z_scope.

Section Claims.
Context (isdigit : Z -> bool) (int16 : list Z -> option Z) (rf : list tok -> res (list tok * list tok)).
Context (D : ascii_isdigit isdigit) (H16 : hex_reader int16) (R : function_reader rf).

(** C54.  A value printed as text and parsed again is the same value.  The values are those
    without floats, without integers below -10^18 and without [true] as a key; what happens to
    the last two is shown below. *)
Theorem C54_text_partial : forall v unpod, storable eq v ->
  exists text, format_pod isdigit no_handler v = Ok (text, []) /\ parse_pod rf unpod text [] = Ok v.
Proof. intros v unpod S. now apply text_roundtrip. Qed.

(** C67.  A value written as bytes, with or without compression, compressed userdata and base64, is
    read back as the same value: its strings have the same bytes and all else is equal. *)
Theorem C67_roundtrip : forall v pxu runtime, storable same_bytes v -> all_pod text_ok pxu_ready v ->
  exists plain, write_pod isdigit int16 (mkwo false pxu false runtime) v = Ok plain /\
  forall compress base64, compress = false \/ zlen plain < 2 ^ 31 - 1 ->
  exists bytes v', write_pod isdigit int16 (mkwo compress pxu base64 runtime) v = Ok bytes /\
    same_pod same_bytes v v' /\ forall depth, read_pod rf (Datatypes.S depth) bytes = Ok v'.
Proof.
  intros v pxu runtime S G. eexists. split; [apply (write_plain isdigit int16 (mkwo false pxu false runtime) D H16 v S G)|].
  intros compress base64 L. set (o := mkwo compress pxu base64 runtime). destruct (write_ok isdigit int16 o D H16 v S G L) as (bytes & W).
  exists bytes, (vmap deco v). split; [exact W|]. split; [|intros depth; now apply (write_read isdigit int16 o D H16 v S G)].
  apply (same_vmap same_bytes deco text_ok pxu_ready); auto. intros s T. symmetry. now apply enc_deco.
Qed.
(** Strings that came from bytes in the first place, such as all Unicode text, are read back as they
    were. *)
Theorem C67_exact : forall v o bytes depth, storable same_bytes v -> all_pod from_bytes pxu_ready v ->
  write_pod isdigit int16 o v = Ok bytes -> read_pod rf (Datatypes.S depth) bytes = Ok v.
Proof.
  intros v o bytes depth S G W.
  assert (G' : all_pod text_ok pxu_ready v) by (apply (all_mono from_bytes text_ok pxu_ready pxu_ready); auto; intros s F; now apply from_bytes_deco).
  rewrite (write_read isdigit int16 o D H16 v S G' bytes rf depth R W). f_equal. apply (vmap_fix deco from_bytes pxu_ready); [|exact G]. intros s F. now apply from_bytes_deco.
Qed.
Theorem C67_unicode : forall s, unicode s -> from_bytes s.
Proof. exact unicode_from_bytes. Qed.

(** C52.  Metadata written into the header of a file is read back with the same entries (in
    another order, as the format comes first), and the payload stays as it is. *)
Theorem C52_metadata : forall data t depth, storable_entries same_bytes t -> all_entries text_ok (fun _ => True) t ->
  exists data' t' t'', set_metadata isdigit data (Some t) = Ok data' /\
    file_metadata rf depth data' = Ok (Some (VTable t'')) /\ reordered t t' /\ same_entries same_bytes t' t'' /\
    raw_payload data' = raw_payload data.
Proof.
  intros data t depth S G. pose proof (meta_written isdigit D t S G) as W. pose proof (meta_starts isdigit D t S G) as St.
  assert (F : find_sub k_meta_suffix (k_meta_prefix ++ meta_bytes isdigit t ++ k_meta_suffix ++ raw_payload data) = Some (k_meta_prefix ++ meta_bytes isdigit t, raw_payload data)).
  { destruct (meta_closed isdigit D t S G) as (N & C). pose proof (meta_no_pair isdigit D t S G) as Np. rewrite app_assoc. change (k_meta_suffix ++ raw_payload data) with (93 :: 93 :: raw_payload data). apply find_end.
    - intros x y E. unfold k_meta_prefix in E. destruct x as [|a [|b [|c [|d x]]]]; try discriminate E. injection E as _ _ _ _ E. now apply (Np x y).
    - destruct (closed_app k_meta_prefix (meta_bytes isdigit t) (conj N C)) as (_ & L). exact L. }
  destruct (new_header _ _ St F) as (M & P). exists (k_meta_prefix ++ meta_bytes isdigit t ++ k_meta_suffix ++ raw_payload data), (pod_first t), (emap deco (pod_first t)).
  refine (conj _ (conj _ (conj (pod_first_perm t) (conj _ P)))).
  - unfold set_metadata. destruct (format_meta_pod isdigit t) as [text|]; [|discriminate]. cbn [bind] in *. rewrite W. reflexivity.
  - unfold file_metadata. rewrite M, (meta_parse isdigit D t S G rf _ R). reflexivity.
  - apply (same_vmap same_bytes deco text_ok (fun _ => True)); [intros s T; symmetry; now apply enc_deco|now apply first_storable|now apply first_all].
Qed.
(** The header ends where it was made to end: it has no other [\]\]]. *)
Theorem C52_header : forall data t, storable_entries same_bytes t -> all_entries text_ok (fun _ => True) t ->
  exists m, set_metadata isdigit data (Some t) = Ok (asc "--[[" ++ m ++ asc "]]" ++ raw_payload data) /\
    forall x y, asc "--[[" ++ m ++ asc "]]" ++ raw_payload data = x ++ asc "]]" ++ y -> (length (asc "--[[" ++ m) <= length x)%nat.
Proof.
  intros data t S G. pose proof (meta_written isdigit D t S G) as W. exists (meta_bytes isdigit t). split.
  - unfold set_metadata. destruct (format_meta_pod isdigit t) as [text|]; [|discriminate]. cbn [bind] in *. rewrite W. reflexivity.
  - intros x y E. destruct (le_lt_dec (length (asc "--[[" ++ meta_bytes isdigit t)) (length x)) as [L|L]; [exact L|exfalso]. rewrite app_assoc in E.
    set (h := asc "--[[" ++ meta_bytes isdigit t) in *. destruct (app_starts x h (asc "]]" ++ raw_payload data) (asc "]]" ++ y) ltac:(symmetry; exact E) ltac:(lia)) as (w & Eh).
    rewrite Eh, <- app_assoc in E. apply app_inv_head in E. rewrite Eh, app_length in L. destruct w as [|a [|b w]]; [cbn in L; lia| |].
    + injection E as -> _. destruct (meta_closed isdigit D t S G) as (N & C). destruct (closed_app (asc "--[[") (meta_bytes isdigit t) (conj N C)) as (_ & K). fold h in K. rewrite Eh, last_last in K. lia.
    + injection E as -> -> _. pose proof (meta_no_pair isdigit D t S G) as Np. unfold h in Eh. destruct x as [|a [|b [|c [|d x]]]]; try discriminate Eh. injection Eh as _ _ _ _ Eh. now apply (Np x w).
Qed.
(** Metadata of strings that came from bytes is read back exactly, but for the order. *)
Theorem C52_exact : forall data t depth data', storable_entries same_bytes t -> all_entries from_bytes (fun _ => True) t ->
  set_metadata isdigit data (Some t) = Ok data' -> exists t', reordered t t' /\ file_metadata rf depth data' = Ok (Some (VTable t')).
Proof.
  intros data t depth data' S G W.
  assert (G' : all_entries text_ok (fun _ => True) t) by (apply (all_mono from_bytes text_ok (fun _ => True) (fun _ => True)); auto; intros s F; now apply from_bytes_deco).
  exists (pod_first t). split; [apply pod_first_perm|].
  pose proof (meta_written isdigit D t S G') as W'. unfold set_metadata in W. destruct (format_meta_pod isdigit t) as [text|]; [|discriminate]. cbn [bind] in *. rewrite W' in W. cbn [bind] in W.
  apply ok_inj in W. subst data'. destruct (meta_closed isdigit D t S G') as (N & C). pose proof (meta_no_pair isdigit D t S G') as Np.
  assert (F : find_sub k_meta_suffix (k_meta_prefix ++ meta_bytes isdigit t ++ k_meta_suffix ++ raw_payload data) = Some (k_meta_prefix ++ meta_bytes isdigit t, raw_payload data)).
  { rewrite app_assoc. change (k_meta_suffix ++ raw_payload data) with (93 :: 93 :: raw_payload data). apply find_end.
    - intros x y E. unfold k_meta_prefix in E. destruct x as [|a [|b [|c [|d x]]]]; try discriminate E. injection E as _ _ _ _ E. now apply (Np x y).
    - destruct (closed_app k_meta_prefix (meta_bytes isdigit t) (conj N C)) as (_ & L). exact L. }
  destruct (new_header _ _ (meta_starts isdigit D t S G') F) as (M & _). unfold file_metadata, set_raw_metadata. rewrite M, (meta_parse isdigit D t S G' rf _ R). cbn [bind].
  repeat f_equal. apply (vmap_fix deco from_bytes (fun _ => True)); [intros s Fs; now apply from_bytes_deco|]. apply all_list. apply (Permutation_Forall (pod_first_perm t)). now apply all_list.
Qed.

(** C68.  Which files hold bytes and which hold a pod follows their metadata: those whose format is
    raw, and those without metadata, hold bytes. *)
Theorem C68_format : forall data t data', storable_entries same_bytes t -> all_entries text_ok (fun _ => True) t ->
  set_metadata isdigit data (Some t) = Ok data' ->
  (file_is_raw data' = true <-> In (VStr (asc "pod_format"), VStr (asc "raw")) (to_list t)).
Proof.
  intros data t data' S G W. pose proof (meta_written isdigit D t S G) as W'. unfold set_metadata in W. destruct (format_meta_pod isdigit t) as [text|]; [|discriminate]. cbn [bind] in *. rewrite W' in W. cbn [bind] in W.
  apply ok_inj in W. subst data'. unfold set_raw_metadata. rewrite raw_header. destruct (meta_starts isdigit D t S G) as (w & Ew).
  replace (starts_with k_meta_pod_prefix (k_meta_prefix ++ meta_bytes isdigit t)) with true by (symmetry; apply header_prefix; rewrite Ew; now eexists). cbn [negb orb].
  transitivity (dict_get t (VStr (asc "pod_format")) = Some (VStr (asc "raw"))).
  - rewrite <- (meta_raw isdigit D t S G), starts_with_iff. split; intros (r & E); exists r.
    + apply (app_inv_head k_meta_prefix). rewrite E. unfold k_meta_pod_raw_prefix, k_meta_prefix. reflexivity.
    + rewrite E. reflexivity.
  - clear -S. induction t as [|k v t IH]; [split; [discriminate|intros []]|]. destruct S as (_ & _ & _ & _ & C & S). cbn [dict_get to_list In]. destruct (key_eqb k (VStr (asc "pod_format"))) eqn:E.
    + apply key_str in E. subst k. split; [intros [= ->]; now left|]. intros [[= ->]|I]; [reflexivity|]. exfalso. apply (in_map fst) in I. rewrite <- keys_list in I. rewrite Forall_forall in C.
      apply (C _ I). reflexivity.
    + rewrite (IH S). split; [now right|]. intros [[= -> ->]|I]; [|exact I]. exfalso. unfold key_eqb in E. cbn in E. discriminate E.
Qed.
(** Storing bytes in a raw file: they are read back and the metadata stays.  Bytes that look like a
    header can not be stored in a file that has none. *)
Theorem C68_bytes : forall o data b depth depth', headed data \/ headless data /\ headless b -> file_is_raw data = true ->
  exists data', set_payload isdigit int16 o data (inl b) = Ok data' /\ file_payload rf depth data' = Ok (inl b) /\
    raw_metadata data' = raw_metadata data /\ file_metadata rf depth' data' = file_metadata rf depth' data.
Proof.
  intros o data b depth depth' H Rw. unfold set_payload, file_payload, file_metadata. rewrite Rw. eexists. split; [reflexivity|]. destruct H as [H|(H & Hb)].
  - destruct (headed_find data H) as (m & rest & F & M & P & E & St). unfold set_raw_payload. rewrite M.
    assert (F' : find_sub k_meta_suffix (k_meta_prefix ++ m ++ k_meta_suffix ++ b) = Some (k_meta_prefix ++ m, b)) by (rewrite app_assoc; rewrite E, app_assoc in F; now apply find_sub_ext with (b := rest)).
    destruct (new_header m b St F') as (M' & P'). rewrite M', P', raw_header. rewrite E, raw_header in Rw. rewrite Rw. auto.
  - destruct (headless_raw data H) as (M & P & _). destruct (headless_raw b Hb) as (M' & P' & Rb). unfold set_raw_payload. rewrite M, M', P', Rb. auto.
Qed.
(** Storing a pod in another file. *)
Theorem C68_pod : forall o data v bytes depth depth', headed data -> file_is_raw data = false -> storable same_bytes v -> all_pod text_ok pxu_ready v ->
  write_pod isdigit int16 o v = Ok bytes ->
  exists data' v', set_payload isdigit int16 o data (inr v) = Ok data' /\ file_payload rf (Datatypes.S depth) data' = Ok (inr v') /\ same_pod same_bytes v v' /\
    raw_metadata data' = raw_metadata data /\ file_metadata rf depth' data' = file_metadata rf depth' data.
Proof.
  intros o data v bytes depth depth' H Rw S G W. unfold set_payload, file_payload, file_metadata. rewrite Rw, W. cbn [bind]. exists (set_raw_payload data bytes), (vmap deco v). split; [reflexivity|].
  destruct (headed_find data H) as (m & rest & F & M & P & E & St). unfold set_raw_payload. rewrite M.
  assert (F' : find_sub k_meta_suffix (k_meta_prefix ++ m ++ k_meta_suffix ++ bytes) = Some (k_meta_prefix ++ m, bytes)) by (rewrite app_assoc; rewrite E, app_assoc in F; now apply find_sub_ext with (b := rest)).
  destruct (new_header m bytes St F') as (M' & P'). rewrite M', P', raw_header. rewrite E, raw_header in Rw. rewrite Rw.
  rewrite (write_read isdigit int16 o D H16 v S G bytes rf depth R W). cbn [bind]. split; [reflexivity|]. split; [|auto].
  apply (same_vmap same_bytes deco text_ok pxu_ready); auto. intros s T. symmetry. now apply enc_deco.
Qed.
(** Removing the metadata leaves the payload. *)
Theorem C68_remove : forall data depth, headless (raw_payload data) ->
  exists data', set_metadata isdigit data None = Ok data' /\ data' = raw_payload data /\ raw_payload data' = raw_payload data /\ file_metadata rf depth data' = Ok None.
Proof.
  intros data depth H. eexists. split; [reflexivity|]. split; [reflexivity|]. destruct (headless_raw _ H) as (M & P & _). cbn [set_raw_metadata]. unfold file_metadata. rewrite M, P. auto.
Qed.
End Claims.

(** What does not survive: an integer below the range becomes a float ... *)
Definition ex_isdigit (c : Z) : bool := (48 <=? c) && (c <=? 57).
Definition reparse (v : pod) : res pod := ('(text, _) <- format_pod ex_isdigit no_handler v ;; parse_pod ex_function (fun _ => Err EType) text [])%res.
Theorem C54_integer_refuted : reparse (VInt (- 10 ^ 18)) = Ok VFloat.
Proof. vm_compute. reflexivity. Qed.
(** ... a key [true] becomes 1 ... *)
Theorem C54_true_refuted : reparse (VTable (ECons (VBool true) (VInt 5) ENil)) = Ok (VTable (ECons (VInt 1) (VInt 5) ENil)).
Proof. vm_compute. reflexivity. Qed.
(** ... and a table with both keys loses an entry when it is parsed. *)
Theorem C54_keys_refuted : parse_pod ex_function (fun _ => Err EType) (asc "{[true]=5,[1]=6}") [] = Ok (VTable (ECons (VBool true) (VInt 6) ENil)).
Proof. vm_compute. reflexivity. Qed.

(** Userdata with less data than its size says, which Picotron accepts, can not be read back once it is
    compressed. *)
Definition short_userdata : userdata := mkud (asc "u8") 20 2 (concat (repeat (asc "05") 30)).
Theorem C67_short_refuted :
  storable same_bytes (VUser short_userdata) /\
  exists bytes, write_pod ex_isdigit (ascii_int 16) (mkwo false true false 0) (VUser short_userdata) = Ok bytes /\
    read_pod ex_function 3 bytes = Err EStruct.
Proof. split; [cbn; unfold keeps_int; lia|]. exists [112; 120; 117; 0; 67; 32; 20; 2; 4; 245; 14]. split; vm_compute; reflexivity. Qed.
(** In a file whose header has no end, the bracket at its end becomes part of the end that is added, and
    remains in the payload. *)
Theorem C68_unended_refuted : forall isdigit int16 o rf depth,
  let data := asc "--[[pod_format=" ++ [34] ++ asc "raw" ++ [34] ++ asc "]" in
  exists data', set_payload isdigit int16 o data (inl (asc "hello")) = Ok data' /\ file_payload rf depth data' = Ok (inl (asc "]hello")).
Proof. intros. exists (data ++ asc "]]hello"). split; reflexivity. Qed.
(** Bytes that begin like a header, stored in a file that has none, are taken for one. *)
Theorem C68_bytes_refuted : forall isdigit int16 o rf depth,
  exists data', set_payload isdigit int16 o [] (inl (asc "--[[pod_format=" ++ [34] ++ asc "raw" ++ [34] ++ asc "]]hello")) = Ok data' /\
    file_payload rf depth data' = Ok (inl (asc "hello")).
Proof. intros. eexists. split; [reflexivity|]. reflexivity. Qed.

(** ** A case *)
Definition ex_user : userdata := mkud (asc "u8") 8 4 (concat (repeat (asc "0a") 32)).
Definition ex_table : entries :=
  ECons (VInt 1) (VStr (asc "a]]b" ++ [10; 0; 233; 0x4e2d; 0xdcff])) (ECons (VInt 2) (VUser ex_user) (ECons (VStr (asc "key")) (VTable (ECons (VInt (-7)) (VBool false) ENil))
    (ECons (VStr (asc "not a key")) (VStr []) (ECons (VBool false) (VInt (2 ^ 62)) ENil)))).
Example ex_isdigit_ok : ascii_isdigit ex_isdigit.
Proof. intros c H. reflexivity. Qed.
Lemma ex_string : from_bytes (asc "a]]b" ++ [10; 0; 233; 0x4e2d; 0xdcff]).
Proof. exists (asc "a]]b" ++ [10; 0; 195; 169; 228; 184; 173; 255]). split; [|reflexivity]. repeat (constructor; [cbn; lia|]). constructor. Qed.
Lemma ex_text s : forallb (fun c => (0 <=? c) && (c <? 128)) s = true -> from_bytes s.
Proof. intros H. apply C67_unicode, Forall_forall. intros c I. rewrite forallb_forall in H. specialize (H c I). lia. Qed.
Lemma ex_ready : pxu_ready ex_user.
Proof.
  intros t E _. destruct t; [|discriminate E]. refine (conj _ (conj _ (conj _ _))); [cbn; lia|cbn; lia| |reflexivity].
  apply Forall_forall. intros c I. apply in_concat in I as (x & I1 & I2). apply repeat_spec in I1. subst x. cbn in I2. unfold is_digit, digit_value. destruct I2 as [<-|[<-|[]]]; split; [lia|reflexivity|lia|reflexivity].
Qed.
Ltac keys_differ := repeat (constructor; [cbn; unfold same_bytes, same_user; intuition (discriminate || congruence)|]); constructor.
Example ex_storable : storable eq (VTable ex_table) /\ storable same_bytes (VTable ex_table) /\ all_pod from_bytes pxu_ready (VTable ex_table).
Proof.
  refine (conj _ (conj _ _)).
  - cbn [ex_table storable storable_entries keys]. unfold keeps_int. cbn [ex_user ud_width ud_height]. repeat split; try lia; try discriminate; keys_differ.
  - cbn [ex_table storable storable_entries keys]. unfold keeps_int. cbn [ex_user ud_width ud_height]. repeat split; try lia; try discriminate; keys_differ.
  - cbn [ex_table all_pod all_entries]. pose proof ex_string. pose proof ex_ready. repeat (first [exact H0 | exact H | now apply ex_text | exact I | apply conj]).
Qed.
Example C67_case : match write_pod ex_isdigit (ascii_int 16) (mkwo false true true 21) (VTable ex_table) with Ok b => read_pod ex_function 3 b | Err e => Err e end = Ok (VTable ex_table).
Proof. vm_compute. reflexivity. Qed.
Definition ex_meta : entries := ECons (VStr (asc "title")) (VStr (asc "]]]")) (ECons (VStr (asc "pod_format")) (VStr (asc "raw")) ENil).
Example C52_case : exists data, set_metadata ex_isdigit (asc "body") (Some ex_meta) = Ok data /\
  data = asc "--[[pod_format=" ++ [34] ++ asc "raw" ++ [34] ++ asc ",title=" ++ [34] ++ asc "]\93]" ++ [34] ++ asc "]]body" /\
  file_metadata ex_function 3 data = Ok (Some (VTable (ECons (VStr (asc "pod_format")) (VStr (asc "raw")) (ECons (VStr (asc "title")) (VStr (asc "]]]")) ENil)))) /\
  file_payload ex_function 3 data = Ok (inl (asc "body")).
Proof. exists (asc "--[[pod_format=" ++ [34] ++ asc "raw" ++ [34] ++ asc ",title=" ++ [34] ++ asc "]\93]" ++ [34] ++ asc "]]body"). repeat split; vm_compute; reflexivity. Qed.
Example C68_case : exists data, set_payload ex_isdigit (ascii_int 16) (mkwo true true false 21) (asc "--[[pod,a=1]]") (inr (VTable ex_table)) = Ok data /\
  headed (asc "--[[pod,a=1]]") /\ headless (asc "hello") /\ file_payload ex_function 3 data = Ok (inr (VTable ex_table)).
Proof.
  set (data := match set_payload ex_isdigit (ascii_int 16) (mkwo true true false 21) (asc "--[[pod,a=1]]") (inr (VTable ex_table)) with Ok d => d | Err _ => [] end).
  exists data. split; [vm_compute; reflexivity|]. split; [now exists (asc ",a=1"), []|]. split; [intros (r & E); discriminate E|]. vm_compute. reflexivity.
Qed.

Print Assumptions C54_text_partial.
Print Assumptions C67_roundtrip.
Print Assumptions C67_exact.
Print Assumptions C67_unicode.
Print Assumptions C52_metadata.
Print Assumptions C52_header.
Print Assumptions C52_exact.
Print Assumptions C68_format.
Print Assumptions C68_bytes.
Print Assumptions C68_pod.
Print Assumptions C68_remove.
Print Assumptions C54_integer_refuted.
Print Assumptions C54_true_refuted.
Print Assumptions C54_keys_refuted.
Print Assumptions C67_short_refuted.
Print Assumptions C68_unended_refuted.
Print Assumptions C68_bytes_refuted.
