(** The LZ77 parser: final forms of the lemmas of L_Lz77. *)
From Coq Require Import Sorted.
From Verif Require Import M_Base M_BitIO M_Lz77 M_Compress S_Lz L_BitIO L_Compress L_Lz77 L_CompressTop.
Open Scope Z_scope.

Lemma chain_limits code min_c max_c max_o nr a its b :
  chain code min_c max_c max_o nr a its b ->
  Forall (within_limits min_c max_c max_o nr) (map snd its).
Proof.
  induction 1 as [a|a it m its b Hg Hc IH]; cbn [map snd]; constructor; [|exact IH].
  destruct it as [c|o c|s]; cbn; auto.
  destruct Hg as [(H1 & H2 & _ & H4 & H5 & H6 & H7) _].
  replace (a - (a - o)) with o in * by lia.
  split; [lia|]. split; [lia|]. auto.
Qed.

Lemma lz77_spells code min_c max_c max_o nr C measure min_cost cheaper steps fast_c idxs its :
  1 <= min_c -> (forall m, max_c = Some m -> 1 <= m) ->
  get_lz77 code min_c max_c max_o nr C measure min_cost cheaper steps fast_c idxs = Ok its ->
  Sorted Z.le (map fst its) ->
  spells [] (map snd its) code /\ Forall (within_limits min_c max_c max_o nr) (map snd its).
Proof.
  intros H1 H2 E HS.
  pose proof (get_lz77_chain code min_c max_c max_o nr H1 H2 C measure min_cost cheaper steps fast_c
    (fun _ => True) I ltac:(intros ? ? ? ? ?; repeat intro; exact I) idxs its E HS) as Hch.
  split; [|eapply chain_limits; exact Hch].
  pose proof (chain_spells _ _ _ _ _ _ _ _ Hch ltac:(pose proof (zlen_nonneg code); lia)) as Hs.
  rewrite slice_all in Hs. exact Hs.
Qed.

Lemma lz77_total code min_c max_c max_o nr C measure min_cost cheaper steps fast_c :
  1 <= min_c -> (forall m, max_c = Some m -> 1 <= m) ->
  (forall m, measure = Some m -> forall out ctxt it, (forall s, it <> Blk s) ->
     exists cost ctxt', m out ctxt it = Ok (cost, ctxt')) ->
  exists its, get_lz77 code min_c max_c max_o nr C measure min_cost cheaper steps fast_c [] = Ok its /\
  spells [] (map snd its) code /\ Forall (within_limits min_c max_c max_o nr) (map snd its).
Proof.
  intros H1 H2 H3.
  destruct (get_lz77_total code min_c max_c max_o nr H1 H2 C measure min_cost cheaper steps fast_c
    (fun _ => True) I ltac:(intros ? ? ? ? ?; repeat intro; exact I)) as (its & E & Hch).
  { intros m out base Em _ ctxt it a b _ _ Hb. exact (H3 m Em out ctxt it Hb). }
  exists its. split; [exact E|]. split; [|eapply chain_limits; exact Hch].
  pose proof (chain_spells _ _ _ _ _ _ _ _ Hch ltac:(pose proof (zlen_nonneg code); lia)) as Hs.
  rewrite slice_all in Hs. exact Hs.
Qed.

Lemma chain_nul_free code min_c max_c max_o nr a its b : Forall (fun c => 0 < c < 256) code ->
  chain code min_c max_c max_o nr a its b -> nul_free_blocks (map snd its).
Proof.
  intros Hc. induction 1 as [a|a it m its b Hg Hch IH]; cbn [map snd]; constructor; [|exact IH].
  destruct it as [c|o c|[|c1 [|c2 s]]]; auto. destruct Hg as (_ & _ & ->).
  apply slice_Forall. eapply Forall_impl; [|exact Hc]. cbn. lia.
Qed.

Lemma nz_bytes code : Forall (fun c => 0 < c < 256) code -> bytes_ok code.
Proof. intros H. eapply Forall_impl; [|exact H]. cbn. lia. Qed.

(** Default compression, when the positions it yields never go back. *)
Lemma default_sorted be force fail code its mx tail :
  (k_code_size <= zlen code \/ force = true) -> Forall (fun c => 0 < c < 256) code -> zlen code < 0x10000 -> bytes_ok tail ->
  new_items false code = Ok its -> Sorted Z.le (map fst its) ->
  exists d, bytes_ok d /\ 8 <= zlen d /\
    compress_code (mkcopts force fail false false be) code =
      (if fail && negb (zlen d <=? k_code_size) then Err ECheck else Ok d) /\
    (zlen d < 0x10000 -> uncompress_code be mx (d ++ tail) = Ok code /\
                         get_compressed_size be mx (d ++ tail) = Ok (zlen d)).
Proof.
  intros Hf Hb Hl Ht E HS. apply (default_roundtrip be force fail code its); auto using nz_bytes.
  unfold new_items in E. destruct (preprocess_litblock_idxs code) as [idxs|]; [|discriminate]. cbn [bind] in E.
  eapply chain_nul_free; [exact Hb|].
  eapply (get_lz77_chain code 3 None (Some 0x7fff) false ltac:(lia) ltac:(discriminate)
    (list Z) (Some measure_new) min_cost_new (Some cheaper_new) [0x20; 0x400] None (fun _ => True) I); [|exact E|exact HS].
  intros m out base H _. repeat intro. exact I.
Qed.

(** Default compression succeeds when the heuristic asks for no literal block. *)
Lemma default_noblock be force fail code mx tail :
  (k_code_size <= zlen code \/ force = true) -> Forall (fun c => 0 < c < 256) code -> zlen code < 0x10000 -> bytes_ok tail ->
  preprocess_litblock_idxs code = Ok [] ->
  exists d, bytes_ok d /\ 8 <= zlen d /\
    compress_code (mkcopts force fail false false be) code =
      (if fail && negb (zlen d <=? k_code_size) then Err ECheck else Ok d) /\
    (zlen d < 0x10000 -> uncompress_code be mx (d ++ tail) = Ok code /\
                         get_compressed_size be mx (d ++ tail) = Ok (zlen d)).
Proof.
  intros Hf Hb Hl Ht Hp.
  destruct (get_lz77_total code 3 None (Some 0x7fff) false ltac:(lia) ltac:(discriminate)
    (list Z) (Some measure_new) min_cost_new (Some cheaper_new) [0x20; 0x400] None Cok_new I) as (its & E & Hch).
  { intros m out base H Hc. injection H as <-. apply measure_new_pres. }
  { intros m out base H Hc. injection H as <-. apply measure_new_tot. now apply nz_bytes. }
  apply (new_roundtrip be force fail false code its); auto using nz_bytes.
  - unfold new_items. rewrite Hp. exact E.
  - eapply chain_nul_free; eassumption.
Qed.

(** Deciding [Sorted], for concrete examples. *)
Fixpoint sortedb (l : list Z) : bool :=
  match l with x :: ((y :: _) as t) => (x <=? y) && sortedb t | _ => true end.
Lemma sortedb_ok l : sortedb l = true -> Sorted Z.le l.
Proof.
  induction l as [|x [|y l] IH]; intros H; [constructor|repeat constructor|].
  cbn [sortedb] in H. apply andb_prop in H as [H1 H2]. constructor; [now apply IH|]. constructor. lia.
Qed.
