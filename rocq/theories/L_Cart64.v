From Coq Require Import Permutation Sorted.
From Verif Require Import M_Base L_Util M_Compress M_Rom M_Text L_Pre M_Files S_Files L_Files M_Lz4 L_Lz4 M_Pxu L_Pxu M_Zbytes P_Zbytes P_Lz4
  M_Cart64 S_Cart64.
Open Scope Z_scope.

(* ------------------------------------------------------------------ *)
(** * Sorting *)
Section Sort.
Context {A : Type} (leb : A -> A -> bool).
Lemma insert_by_perm x l : Permutation (x :: l) (insert_by leb x l).
Proof.
  induction l as [|y l IH]; [easy|]. cbn [insert_by]. destruct (leb y x); [|easy].
  rewrite perm_swap. now constructor.
Qed.
Lemma sorted_by_perm l : Permutation l (sorted_by leb l).
Proof.
  unfold sorted_by. assert (G : forall l acc, Permutation (l ++ acc) (fold_left (fun acc x => insert_by leb x acc) l acc)).
  { clear l. induction l as [|x l IH]; intros acc; [easy|]. cbn [fold_left app]. rewrite <- IH.
    rewrite <- insert_by_perm. apply Permutation_middle. }
  rewrite <- G. now rewrite app_nil_r.
Qed.
Context (total : forall x y, leb x y = false -> leb y x = true)
        (trans : forall x y z, leb x y = true -> leb y z = true -> leb x z = true).
Lemma insert_by_sorted x l : StronglySorted (fun a b => leb a b = true) l ->
  StronglySorted (fun a b => leb a b = true) (insert_by leb x l).
Proof.
  induction l as [|y l IH]; intros H; cbn [insert_by]; [now repeat constructor|].
  inversion H as [|? ? S F]; subst. destruct (leb y x) eqn:E.
  - constructor; [now apply IH|]. eapply Permutation_Forall; [apply insert_by_perm|]. now constructor.
  - apply total in E. constructor; [easy|]. constructor; [easy|]. eapply Forall_impl; [|exact F].
    intros z Z. now apply (trans x y z).
Qed.
Lemma sorted_by_sorted l : StronglySorted (fun a b => leb a b = true) (sorted_by leb l).
Proof.
  unfold sorted_by. assert (G : forall l acc, StronglySorted (fun a b => leb a b = true) acc ->
    StronglySorted (fun a b => leb a b = true) (fold_left (fun acc x => insert_by leb x acc) l acc)).
  { clear l. induction l as [|x l IH]; intros acc H; [easy|]. cbn [fold_left]. apply IH. now apply insert_by_sorted. }
  apply G. constructor.
Qed.
Lemma sorted_by_before l x y : In x l -> In y l -> leb y x = false -> before (sorted_by leb l) x y.
Proof.
  intros Ix Iy E. pose proof (sorted_by_perm l) as P. pose proof (sorted_by_sorted l) as S.
  apply (Permutation_in _ P) in Ix, Iy. revert S Ix Iy. generalize (sorted_by leb l). clear l P.
  induction l as [|z l IH]; intros S Ix Iy; [easy|]. inversion S as [|? ? S' F]; subst.
  destruct Iy as [->|Iy].
  - exfalso. destruct Ix as [->|Ix].
    + pose proof (total x x) as T. rewrite E in T. now specialize (T eq_refl).
    + rewrite Forall_forall in F. rewrite (F x Ix) in E. discriminate E.
  - destruct Ix as [->|Ix].
    + apply in_split in Iy as (a & b & ->). now exists [], a, b.
    + destruct (IH S' Ix Iy) as (a & b & c & ->). now exists (z :: a), b, c.
Qed.
End Sort.

Lemma str_leb_refl a : str_leb a a = true.
Proof. induction a as [|x a IH]; [easy|]. cbn [str_leb]. rewrite IH, Z.eqb_refl. apply orb_true_r. Qed.
Lemma str_leb_total a : forall b, str_leb a b = false -> str_leb b a = true.
Proof.
  induction a as [|x a IH]; intros [|y b] E; try easy. cbn [str_leb] in *.
  destruct (Z.ltb_spec x y); [discriminate E|]. cbn [orb] in E. destruct (Z.eqb_spec x y) as [->|N].
  - cbn [andb] in E. rewrite Z.eqb_refl, (IH b E). apply orb_true_r.
  - destruct (Z.ltb_spec y x); [easy|lia].
Qed.
Lemma str_leb_trans a : forall b c, str_leb a b = true -> str_leb b c = true -> str_leb a c = true.
Proof.
  induction a as [|x a IH]; intros [|y b] [|z c] E F; try easy. cbn [str_leb] in *.
  destruct (Z.ltb_spec x y), (Z.ltb_spec y z), (Z.ltb_spec x z); try easy; try lia; cbn [orb] in *;
  destruct (Z.eqb_spec x y), (Z.eqb_spec y z), (Z.eqb_spec x z); cbn [andb] in *; try easy; try lia.
  now apply (IH b c).
Qed.
Lemma str_leb_antisym a : forall b, str_leb a b = true -> str_leb b a = true -> a = b.
Proof.
  induction a as [|x a IH]; intros [|y b] E F; try easy. cbn [str_leb] in *.
  destruct (Z.ltb_spec x y), (Z.ltb_spec y x); try lia; cbn [orb] in *;
  destruct (Z.eqb_spec x y), (Z.eqb_spec y x); cbn [andb] in *; try easy; try lia.
  f_equal; [easy|now apply IH].
Qed.
Lemma str_lex_trans a b c r1 r2 r3 : str_lex a b r1 = true -> str_lex b c r2 = true ->
  (r1 = true -> r2 = true -> r3 = true) -> str_lex a c r3 = true.
Proof.
  unfold str_lex. intros E F H. destruct (zeqb_list a b) eqn:Q; destruct (zeqb_list b c) eqn:R;
    rewrite ?zeqb_list_true, ?zeqb_list_false in *; subst.
  - rewrite zeqb_list_refl. auto.
  - destruct (zeqb_list b c) eqn:T; [apply zeqb_list_true in T; easy|easy].
  - destruct (zeqb_list a c) eqn:T; [apply zeqb_list_true in T; easy|easy].
  - destruct (zeqb_list a c) eqn:T; [|now apply (str_leb_trans a b c)].
    apply zeqb_list_true in T. subst. exfalso. apply Q. now apply str_leb_antisym.
Qed.
Lemma str_lex_total a b r1 r2 : str_lex a b r1 = false -> (r1 = false -> r2 = true) -> str_lex b a r2 = true.
Proof.
  unfold str_lex. intros E H. destruct (zeqb_list a b) eqn:Q; rewrite ?zeqb_list_true, ?zeqb_list_false in *; subst.
  - rewrite zeqb_list_refl. auto.
  - destruct (zeqb_list b a) eqn:T; [apply zeqb_list_true in T; congruence|]. now apply str_leb_total.
Qed.
Lemma key_leb_trans a b c : key_leb a b = true -> key_leb b c = true -> key_leb a c = true.
Proof.
  destruct a as (((n, x), y), z), b as (((n', x'), y'), z'), c as (((n'', x''), y''), z''). unfold key_leb. intros E F.
  destruct (Z.ltb_spec n n''); [easy|]. cbn [orb].
  destruct (Z.ltb_spec n n'), (Z.ltb_spec n' n''); cbn [orb] in *; try lia;
    destruct (Z.eqb_spec n n'), (Z.eqb_spec n' n''), (Z.eqb_spec n n''); cbn [andb] in *; try easy; try lia.
  refine (str_lex_trans _ _ _ _ _ _ E F _). intros E' F'.
  refine (str_lex_trans _ _ _ _ _ _ E' F' _). apply str_leb_trans.
Qed.
Lemma key_leb_total a b : key_leb a b = false -> key_leb b a = true.
Proof.
  destruct a as (((n, x), y), z), b as (((n', x'), y'), z'). unfold key_leb. intros E.
  destruct (Z.ltb_spec n' n); [easy|]. cbn [orb].
  destruct (Z.ltb_spec n n'); cbn [orb] in *; [easy|].
  destruct (Z.eqb_spec n n'), (Z.eqb_spec n' n); cbn [andb] in *; try easy; try lia.
  refine (str_lex_total _ _ _ _ E _). intros E'. refine (str_lex_total _ _ _ _ E' _). apply str_leb_total.
Qed.

(* ------------------------------------------------------------------ *)
(** * Directories first *)
Lemma ends_with_spec p : ends_with [47] p = true <-> exists q, p = q ++ [47].
Proof.
  unfold ends_with. rewrite starts_with_spec. cbn [rev app]. split.
  - intros (t & E). exists (rev t). apply (f_equal (@rev Z)) in E. now rewrite rev_involutive in E.
  - intros (q & ->). exists (rev q). now rewrite rev_unit.
Qed.
Lemma split_last_dir q : split_last_slash (q ++ [47]) = (q, []).
Proof.
  unfold split_last_slash, before_last_slash. rewrite rev_unit. cbn. now rewrite rev_involutive.
Qed.
Lemma split_last_name p : (forall q, p <> q ++ [47]) -> p <> [] -> snd (split_last_slash p) <> [].
Proof.
  intros N Np. destruct (rev_ind (fun p => p = [] \/ exists q c, p = q ++ [c]) (or_introl eq_refl)
    (fun x l _ => or_intror (ex_intro _ l (ex_intro _ x eq_refl))) p) as [->|(q & c & ->)]; [easy|].
  unfold split_last_slash. rewrite rev_unit. cbn [upto_slash snd]. destruct (Z.eqb_spec c 47) as [->|]; [now destruct (N q)|].
  cbn [rev]. destruct (rev (upto_slash (rev q))); easy.
Qed.
Lemma key_of_dir q : ext_order_key (q ++ [47]) = (-10, [], q, []).
Proof. unfold ext_order_key. now rewrite split_last_dir. Qed.
Lemma key_of_file p : (forall q, p <> q ++ [47]) -> p <> [] -> 0 <= fst (fst (fst (ext_order_key p))).
Proof.
  intros N Np. pose proof (split_last_name p N Np) as H. unfold ext_order_key. destruct (split_last_slash p) as (d, f).
  cbn [snd] in H. destruct (zeqb_list f []) eqn:E; [apply zeqb_list_true in E; easy|].
  repeat match goal with |- context [if ?b then _ else _] => destruct b; [cbn; lia|] end. cbn. lia.
Qed.
Lemma str_leb_prefix a b : str_leb (a ++ b) a = true -> b = [].
Proof.
  induction a as [|x a IH]; intros E.
  - now destruct b.
  - cbn [app str_leb] in E. rewrite Z.eqb_refl, Z.ltb_irrefl in E. now apply IH.
Qed.

(* ------------------------------------------------------------------ *)
(** * Roms *)
Lemma set_new {file} (fs : @files file) p v : ~ In p (map fst fs) -> set fs p v = fs ++ [(p, v)].
Proof.
  induction fs as [|(k, w) fs IH]; intros N; [easy|]. cbn [set app]. cbn [map fst] in N.
  destruct (zeqb_list p k) eqn:E; [apply zeqb_list_true in E; subst; destruct N; now left|].
  f_equal. apply IH. intros I. apply N. now right.
Qed.

Lemma read_zpath p post : Forall (fun c => 0 < c < 256) p ->
  read_zbytes None 1 false (p ++ [0] ++ post) = Ok (p, post).
Proof.
  intros H. unfold read_zbytes.
  assert (T : text_of 1 (map (fun c => [c]) p) p).
  { split; [clear; induction p as [|c p IH]; [easy|]; cbn; now rewrite <- IH|].
    apply Forall_forall. intros c I. apply in_map_iff in I as (x & <- & I). split; [easy|].
    rewrite Forall_forall in H. specialize (H x I). cbn. injection. lia. }
  rewrite (read_z_spec 1 false ltac:(lia) _ p T); [easy|]. rewrite map_length, app_length. cbn. lia.
Qed.

Lemma w_u32_ok v b : w_u32 v = Ok b -> bytes_ok b /\ length b = 4%nat.
Proof.
  unfold w_u32. intros E. destruct (Z.leb_spec 0 v); [|discriminate E]. destruct (Z.ltb_spec v 4294967296); [|discriminate E].
  cbn [andb] in E. injection E as <-. split; [|easy]. repeat (constructor; [lia|]). constructor.
Qed.

Lemma write_rom_file_ok f : sound_file f -> exists b, write_rom_file f = Ok b /\ bytes_ok b /\ b <> [] /\
  forall fuel post fs, ~ In (fst f) (map fst fs) -> (0 < fuel)%nat ->
    read_rom_files fuel (b ++ post) fs = read_rom_files (fuel - 1) post (fs ++ [f]).
Proof.
  destruct f as (p, file). intros (Hp & H). unfold write_rom_file, write_zbytes. cbn [Nat.ltb Nat.leb andb negb assert_ bind].
  change (zeros 1) with [0].
  assert (Bp : bytes_ok (p ++ [0])).
  { apply Forall_app. split; [eapply Forall_impl; [|exact Hp]; cbn; lia|constructor; [lia|constructor]]. }
  assert (Step : forall fuel b post fs, (0 < fuel)%nat ->
    read_rom_files fuel ((p ++ [0] ++ b) ++ post) fs =
      if ends_with [47] p then read_rom_files (fuel - 1) (b ++ post) (set fs p None)
      else
            '(size, d) <- r_u8 (b ++ post) ;;
            '(size, d) <- (if size =? 0xff then r_u32 d else Ok (size, d)) ;;
            '(data, d) <- r_bytes (Z.to_nat size) false d ;;
            read_rom_files (fuel - 1) d (set fs p (Some data))).
  { intros [|fuel] b post fs Lf; [lia|]. rewrite <- !app_assoc. cbn [read_rom_files].
    destruct (p ++ [0] ++ b ++ post) eqn:E; [destruct p; discriminate E|]. rewrite <- E.
    rewrite read_zpath by easy. cbn [bind]. replace (S fuel - 1)%nat with fuel by lia. reflexivity. }
  destruct file as [data|].
  - destruct H as (Nd & Bd & Ld). destruct (ends_with [47] p) eqn:E; [apply ends_with_spec in E as (q & ->); now destruct (Nd q)|].
    cbn [Bool.eqb negb check_ bind].
    assert (Sz : exists s, (if zlen data <? 0xff then w_u8 (zlen data)
        else a <- w_u8 0xff ;; b <- w_u32 (zlen data) ;; Ok (a ++ b)) = Ok s /\ bytes_ok s /\
        forall B post (k : Z -> list Z -> res B), ('(size, d) <- r_u8 (s ++ post) ;;
          '(size, d) <- (if size =? 0xff then r_u32 d else Ok (size, d)) ;; k size d) = k (zlen data) post).
    { pose proof (zlen_nonneg data). destruct (Z.ltb_spec (zlen data) 255).
      - rewrite w_u8_ok by lia. eexists. split; [reflexivity|]. split; [constructor; [lia|constructor]|].
        intros B post k. cbn. now destruct (Z.eqb_spec (zlen data) 255); [lia|].
      - rewrite w_u8_ok by lia. destruct (r_u32_ok (zlen data) ltac:(lia)) as (b & Eb & R). rewrite Eb. cbn [bind].
        eexists. split; [reflexivity|]. split; [|intros B post k; cbn [app r_u8 bind Z.eqb Pos.eqb]; now rewrite R].
        constructor; [lia|]. now apply (w_u32_ok (zlen data)). }
    destruct Sz as (s & -> & Bs & R). cbn [bind]. eexists. split; [reflexivity|].
    split; [apply Forall_app; split; [easy|]; now apply Forall_app|]. split; [now destruct p|].
    intros fuel post fs Nin Lf. rewrite <- (app_assoc p), Step by easy. rewrite <- app_assoc, R.
    unfold r_bytes. rewrite firstn_exact, skipn_exact by (unfold zlen; lia).
    replace (length data <? Z.to_nat (zlen data))%nat with false by (symmetry; apply Nat.ltb_ge; unfold zlen; lia).
    cbn [andb bind]. now rewrite set_new.
  - destruct (ends_with [47] p) eqn:E; [|destruct H as (q & ->); rewrite (proj2 (ends_with_spec (q ++ [47]))) in E by (now exists q); discriminate E].
    cbn [Bool.eqb negb check_ bind]. eexists. split; [reflexivity|]. split; [easy|]. split; [now destruct p|].
    intros fuel post fs Nin Lf. specialize (Step fuel [] post fs Lf). rewrite app_nil_r in Step. rewrite Step.
    cbn [app]. now rewrite set_new.
Qed.

Lemma write_rom_files_ok fs : Forall sound_file fs -> exists bs, map_res write_rom_file fs = Ok bs /\ bytes_ok (concat bs) /\
  forall fuel acc, NoDup (map fst (acc ++ fs)) -> (length (concat bs) <= fuel)%nat ->
    read_rom_files fuel (concat bs) acc = Ok (acc ++ fs).
Proof.
  induction fs as [|f fs IH]; intros F.
  - exists []. split; [easy|]. split; [constructor|]. intros fuel acc _ _. rewrite app_nil_r. now destruct fuel.
  - inversion F as [|? ? Sf F']; subst. destruct (write_rom_file_ok f Sf) as (b & E & Bb & Nb & R).
    destruct (IH F') as (bs & Es & Bs & Rs). exists (b :: bs). cbn [map_res]. rewrite E, Es. cbn [bind concat].
    split; [easy|]. split; [now apply Forall_app|]. intros fuel acc N L. rewrite app_length in L.
    assert (length b <> 0)%nat by (destruct b; easy).
    rewrite R; [|rewrite map_app in N; cbn [map] in N; apply NoDup_remove_2 in N; intros I; apply N; apply in_or_app; now left|lia].
    rewrite Rs; [now rewrite <- app_assoc|now rewrite <- app_assoc|lia].
Qed.

(** whatever is written are bytes *)
Lemma w_u8_bytes v b : w_u8 v = Ok b -> bytes_ok b.
Proof.
  unfold w_u8, is_byte. intros E. destruct (Z.leb_spec 0 v); [|discriminate E]. destruct (Z.ltb_spec v 256); [|discriminate E].
  injection E as <-. constructor; [lia|constructor].
Qed.
Lemma u8_sum_bytes fuel : forall v b, write_u8_sum fuel v = Ok b -> bytes_ok b.
Proof.
  induction fuel as [|fuel IH]; intros v b E; [discriminate E|]. cbn [write_u8_sum] in E.
  destruct (w_u8 _) as [x|] eqn:Ex; [|discriminate E]. cbn [bind] in E. apply w_u8_bytes in Ex.
  destruct (negb _); [now injection E as <-|]. destruct (write_u8_sum fuel _) as [y|] eqn:Ey; [|discriminate E].
  cbn [bind] in E. injection E as <-. apply Forall_app. split; [easy|]. now apply IH in Ey.
Qed.
Lemma lits_bytes l : forall x, map_res w_u8 l = Ok x -> bytes_ok (concat x).
Proof.
  induction l as [|c l IH]; intros x E; cbn [map_res] in E; [injection E as <-; constructor|].
  destruct (w_u8 c) as [y|] eqn:Ey; [|discriminate E]. cbn [bind] in E. destruct (map_res w_u8 l) as [z|] eqn:Ez; [|discriminate E].
  injection E as <-. cbn [concat]. apply Forall_app. split; [now apply w_u8_bytes in Ey|now apply IH].
Qed.
Lemma write_block_bytes l it b : write_block l it = Ok b -> bytes_ok b.
Proof.
  unfold write_block. intros E. destruct (w_u8 _) as [h|] eqn:Eh in E; [|discriminate E]. cbn [bind] in E. apply w_u8_bytes in Eh.
  destruct (if 15 <=? zlen l then _ else _) as [x|] eqn:Ex in E; [|discriminate E]. cbn [bind] in E.
  assert (Bx : bytes_ok x) by (destruct (15 <=? zlen l); [now apply u8_sum_bytes in Ex|injection Ex as <-; constructor]).
  destruct (map_res w_u8 l) as [y|] eqn:Ey in E; [|discriminate E]. cbn [bind] in E. apply lits_bytes in Ey.
  destruct it as [(o, c)|].
  - unfold w_u16 in E. destruct (Z.leb_spec 0 o); [|discriminate E]. destruct (Z.ltb_spec o 65536); [|discriminate E]. cbn [andb bind] in E.
    destruct (if 15 <=? c - lz4_min_c then _ else _) as [z|] eqn:Ez in E; [|discriminate E]. cbn [bind] in E.
    assert (Bz : bytes_ok z) by (destruct (15 <=? c - lz4_min_c); [now apply u8_sum_bytes in Ez|injection Ez as <-; constructor]).
    injection E as <-. unfold bytes_ok in *. rewrite !Forall_app. do 3 (split; [easy|]).
    do 2 (constructor; [lia|]). easy.
  - injection E as <-. unfold bytes_ok in *. now rewrite !Forall_app.
Qed.
Lemma lz4_compress_bytes data fast b : lz4_compress data fast = Ok b -> bytes_ok b.
Proof.
  unfold lz4_compress. destruct (lz4_items data fast) as [its|]; [|easy]. cbn [bind]. generalize (@nil Z) at 1. revert b.
  induction its as [|x its IH]; intros b l E; cbn [lz4_write] in E; [now apply write_block_bytes in E|].
  destruct (lz4_check data x); [|discriminate E]. cbn [bind] in E. destruct (lz4_item data l x) as (blk, l').
  destruct blk as [(lits, m)|].
  - destruct (write_block lits (Some m)) as [y|] eqn:Ey; [|discriminate E]. cbn [bind] in E.
    destruct (lz4_write data its l') as [z|] eqn:Ez; [|discriminate E]. injection E as <-. apply Forall_app.
    split; [now apply write_block_bytes in Ey|now apply (IH _ l')].
  - cbn [bind] in E. destruct (lz4_write data its l') as [z|] eqn:Ez; [|discriminate E]. injection E as <-. now apply (IH _ l').
Qed.

Lemma rom_roundtrip cart fast : sound_files (c64_files cart) -> 0 <= c64_version cart < 256 ->
  exists size, (forall padding limit, over limit size -> write_cart64_to_rom padding limit fast cart = Err ECheck) /\
    (4294967304 <= size -> forall padding limit, ~ over limit size -> write_cart64_to_rom padding limit fast cart = Err EStruct) /\
    (size < 4294967304 ->
      exists rom, (forall padding limit, ~ over limit size -> write_cart64_to_rom padding limit fast cart = Ok (rom ++ repeat 0 padding)) /\
        zlen rom = size /\ bytes_ok rom /\
        forall version tiny tail, read_cart64_from_rom version tiny (rom ++ tail) =
          Ok (mkcart64 (c64_version cart) (sorted_by ext_leb (c64_files cart)))).
Proof.
  destruct cart as (v, fs). cbn [c64_files c64_version]. intros (N & F) Hv.
  pose proof (sorted_by_perm ext_leb fs) as P.
  assert (F' : Forall sound_file (sorted_by ext_leb fs)) by now apply (Permutation_Forall P).
  assert (N' : NoDup (map fst (sorted_by ext_leb fs))) by (eapply Permutation_NoDup; [apply Permutation_map, P|exact N]).
  destruct (write_rom_files_ok _ F') as (bs & E & B & R).
  destruct (C10_roundtrip (concat bs) fast B) as (com & Ec & Uc).
  exists (k_rom_header_size + zlen com). unfold write_cart64_to_rom. cbn [c64_files c64_version]. rewrite E. cbn [bind].
  rewrite Ec. cbn [bind]. rewrite w_u8_ok by easy. cbn zeta. split.
  - intros padding limit (l & -> & Nl & L). destruct (Z.eqb_spec l 0); [easy|]. destruct (Z.leb_spec (k_rom_header_size + zlen com) l); [lia|]. reflexivity.
  - assert (Lim : forall limit, ~ over limit (k_rom_header_size + zlen com) ->
      match limit with Some l => if l =? 0 then Ok tt else check_ (k_rom_header_size + zlen com <=? l) | None => Ok tt end = Ok tt).
    { intros limit No. destruct limit as [l|]; [|easy]. destruct (Z.eqb_spec l 0); [easy|]. destruct (Z.leb_spec (k_rom_header_size + zlen com) l); [easy|].
      exfalso. apply No. now exists l. }
    unfold k_rom_header_size in *. split.
    { intros Hs padding limit No. rewrite Lim by easy. cbn [bind]. unfold w_u32.
      destruct (Z.leb_spec 0 (zlen com)); [|reflexivity]. destruct (Z.ltb_spec (zlen com) 4294967296); [lia|]. reflexivity. }
    intros Hs. pose proof (zlen_nonneg com).
    destruct (r_u32_ok (zlen com) ltac:(lia)) as (n & En & Rn). rewrite En. cbn [bind].
    exists (k_rom_header_sig ++ [v] ++ n ++ com). destruct (w_u32_ok _ _ En) as (Bn & Ln). split.
    { intros padding limit No. rewrite Lim by easy.
      cbn [bind]. now rewrite <- !app_assoc. }
    split; [rewrite !zlen_app; replace (zlen n) with 4 by (unfold zlen; lia); change (zlen k_rom_header_sig) with 3; change (zlen [v]) with 1; lia|]. split.
    { unfold bytes_ok. rewrite !Forall_app. split; [repeat (constructor; [lia|]); constructor|]. split; [constructor; [lia|constructor]|].
      split; [easy|]. now apply (lz4_compress_bytes (concat bs) fast). }
    intros version tiny tail. unfold read_cart64_from_rom. rewrite <- !app_assoc.
    unfold r_bytes at 1. rewrite firstn_exact, skipn_exact by easy. cbn [length Nat.ltb Nat.leb k_rom_header_sig andb bind].
    rewrite zeqb_list_refl. cbn [app r_u8 bind]. rewrite Rn. cbn [bind].
    unfold r_bytes. rewrite firstn_exact, skipn_exact by (unfold zlen; lia).
    replace (length com <? Z.to_nat (zlen com))%nat with false by (symmetry; apply Nat.ltb_ge; unfold zlen; lia).
    cbn [andb bind]. rewrite Uc. cbn [bind]. rewrite R by easy. reflexivity.
Qed.

Lemma sorted_dirs_first fs : Forall sound_file fs -> dirs_first (sorted_by ext_leb fs).
Proof.
  intros F. pose proof (sorted_by_perm ext_leb fs) as P. apply (Permutation_Forall P) in F. rewrite Forall_forall in F.
  assert (T : forall x y : list Z * option (list Z), ext_leb x y = false -> ext_leb y x = true) by (intros x y; apply key_leb_total).
  assert (Tr : forall x y z : list Z * option (list Z), ext_leb x y = true -> ext_leb y z = true -> ext_leb x z = true) by (intros x y z; apply key_leb_trans).
  assert (Bf : forall x y, In x (sorted_by ext_leb fs) -> In y (sorted_by ext_leb fs) -> ext_leb y x = false -> before (sorted_by ext_leb fs) x y).
  { intros x y Ix Iy. apply sorted_by_before; [exact T|exact Tr|now apply (Permutation_in _ (Permutation_sym P))|now apply (Permutation_in _ (Permutation_sym P))]. }
  split.
  - intros d p data Id Ip Np. apply Bf; [easy|easy|]. destruct (F _ Id) as (_ & q & ->). destruct (F _ Ip) as (_ & N & _).
    unfold ext_leb. cbn [fst]. rewrite key_of_dir. pose proof (key_of_file p N Np) as K.
    destruct (ext_order_key p) as (((n, x), y), z). cbn [fst] in K. unfold key_leb.
    destruct (Z.ltb_spec n (-10)); [lia|]. destruct (Z.eqb_spec n (-10)); [lia|]. reflexivity.
  - intros d r Id Ir Nr. apply Bf; [easy|easy|]. destruct (F _ Id) as (_ & q & ->). destruct (F _ Ir) as (_ & q' & E).
    unfold ext_leb. cbn [fst]. rewrite E, !key_of_dir. unfold key_leb. cbn [Z.ltb Z.compare Pos.compare Pos.compare_cont orb Z.eqb Pos.eqb andb].
    unfold str_lex. cbn [zeqb_list]. destruct (zeqb_list q' q) eqn:Q.
    + apply zeqb_list_true in Q. subst. rewrite <- (app_nil_r (q ++ [47])) in E at 2. apply app_inv_head in E. now subst.
    + (* the longer one is greater *)
      destruct (str_leb q' q) eqn:Le; [|easy]. exfalso.
      assert (exists u, q' = q ++ 47 :: u /\ r = u ++ [47] \/ q' = q) as (u & Hu).
      { destruct (rev_ind (fun r => r = [] \/ exists u c, r = u ++ [c]) (or_introl eq_refl)
          (fun x l _ => or_intror (ex_intro _ l (ex_intro _ x eq_refl))) r) as [->|(u & c & ->)]; [easy|].
        exists u. left. rewrite app_assoc in E. apply app_inj_tail in E as (E & ->). split; [|easy]. rewrite <- E. now rewrite <- app_assoc. }
      destruct Hu as [(-> & ->)| ->]; [|now rewrite zeqb_list_refl in Q]. apply str_leb_prefix in Le. discriminate Le.
Qed.
