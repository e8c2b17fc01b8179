(** Lemmas on the .p8 text format: sections and the whole file. *)
From Verif Require Import M_Base L_Util M_Memory L_Memory M_Compress M_Charset L_Charset M_Fold S_Fold L_Fold M_Rom S_Rom M_Text S_Num S_Text L_Text.
Open Scope Z_scope.
Ltac Zify.zify_post_hook ::= Z.div_mod_to_equations.
Local Opaque mem_create_rom.

Lemma ends_with_cons : forall c l, ends_with [c] l = true -> exists r, l = r ++ [c].
Proof.
  intros c l H. unfold ends_with, starts_with in H. cbn [rev app length] in H. destruct (rev l) as [|x r] eqn:E; [discriminate H|].
  cbn [firstn] in H. exists (rev r). rewrite <- (rev_involutive l), E. cbn. f_equal. f_equal.
  apply zeqb_list_true in H. congruence.
Qed.
Lemma starts_with_iff : forall p s, starts_with p s = true <-> exists r, s = p ++ r.
Proof.
  intros p s. unfold starts_with. rewrite zeqb_list_true. split.
  - intros H. exists (skipn (length p) s). rewrite H at 1. symmetry. apply firstn_skipn.
  - intros [r ->]. rewrite firstn_app, Nat.sub_diag, firstn_all, firstn_O, app_nil_r. reflexivity.
Qed.
Lemma ends_with_iff : forall p s, ends_with p s = true <-> exists r, s = r ++ p.
Proof.
  intros p s. unfold ends_with. rewrite starts_with_iff. split.
  - intros [r E]. exists (rev r). rewrite <- (rev_involutive s), E, rev_app_distr, rev_involutive. reflexivity.
  - intros [r ->]. exists (rev r). apply rev_app_distr.
Qed.

(** A line that does not start with "__" is not a header. *)
Definition not_under (l : list Z) : Prop := hd 0 l <> 95.
Lemma not_under_starts : forall l, not_under l -> starts_with under l = false.
Proof.
  intros l H. destruct (starts_with under l) eqn:E; [|reflexivity]. apply starts_with_iff in E as [r ->].
  exfalso. apply H. reflexivity.
Qed.

Section Read.
Context (int16 int10 : list Z -> option Z) (lower : Z -> list Z).
Context (H16 : hex_reader int16) (H10 : decimal_reader int10) (Hlow : ascii_lower lower).

Notation rl := (read_line int16 int10 lower false).
Notation rls := (read_lines int16 int10 lower false).

Lemma read_lines_app : forall a b st i,
  rls st i (a ++ b) = (st' <- rls st i a ;; rls st' (i + zlen a) b).
Proof.
  induction a as [|l a IH]; intros b st i; cbn [app read_lines].
  - cbn [bind]. rewrite zlen_nil. f_equal. lia.
  - destruct (checked (rl st i l)) as [st'|e]; cbn [bind]; [|reflexivity]. rewrite IH. rewrite zlen_cons.
    replace (i + 1 + zlen a) with (i + (1 + zlen a)) by lia. reflexivity.
Qed.

Lemma read_header : forall st i name, ~ In 10 name ->
  rl st i (header_line name) = Ok (mkrs (Some name) 0 (r_code st) (r_code_line st) (r_cart st)).
Proof.
  intros st i name _. unfold read_line.
  assert (S : strip (header_line name) = header_line name).
  { unfold header_line, under. cbn [app].
    replace (95 :: 95 :: name ++ [95; 95]) with (95 :: (95 :: name ++ [95]) ++ [95]) by (cbn; rewrite <- app_assoc; reflexivity).
    apply strip_ends; reflexivity. }
  rewrite S.
  assert (A : starts_with under (header_line name) = true) by (apply starts_with_iff; exists (name ++ under); reflexivity).
  assert (B : ends_with under (header_line name) = true) by (apply ends_with_iff; exists (under ++ name); unfold header_line; rewrite app_assoc; reflexivity).
  rewrite A, B. cbn [andb negb]. f_equal. f_equal. f_equal. unfold slice, header_line.
  replace (Z.to_nat (zlen (under ++ name ++ under) - 2 - 2)) with (length name).
  2:{ unfold zlen, under. rewrite !app_length. cbn [length]. lia. }
  change (Z.to_nat 2) with 2%nat. unfold under. cbn [app skipn]. rewrite firstn_app, Nat.sub_diag, firstn_all, firstn_O, app_nil_r. reflexivity.
Qed.

(** *** Rom sections.  [row_ok]: reading row [y] of a section patches its bytes. *)
Definition row_reads (name : list Z) (m : list Z) (text : list Z) (y a size : Z) : Prop :=
  forall st i, r_header st = Some name -> r_y st = y -> bytes_ok (c_rom (r_cart st)) -> zlen (c_rom (r_cart st)) = 0x4300 ->
  exists rom', rl st i text = Ok (mkrs (Some name) (y + 1) (r_code st) (r_code_line st) (with_rom (r_cart st) rom')) /\
    patched (c_rom (r_cart st)) m a size rom'.

Lemma with_rom_rom : forall c a b, with_rom (with_rom c a) b = with_rom c b.
Proof. reflexivity. Qed.
Lemma with_rom_id : forall c, with_rom c (c_rom c) = c.
Proof. intros []. reflexivity. Qed.

Lemma rows_read : forall name m texts y A size st i, 0 <= size ->
  (forall k t, nth_error texts k = Some t -> row_reads name m t (y + Z.of_nat k) (A + Z.of_nat k * size) size) ->
  r_header st = Some name -> r_y st = y -> bytes_ok (c_rom (r_cart st)) -> zlen (c_rom (r_cart st)) = 0x4300 ->
  exists rom', rls st i texts = Ok (mkrs (Some name) (y + zlen texts) (r_code st) (r_code_line st) (with_rom (r_cart st) rom')) /\
    patched (c_rom (r_cart st)) m A (zlen texts * size) rom'.
Proof.
  induction texts as [|t texts IH]; intros y A size st i Hs H Hh Hy Hb Hl.
  - exists (c_rom (r_cart st)). split; [|apply patched_nil; assumption].
    destruct st as [h y' code cl c]. cbn [r_header r_y r_cart r_code r_code_line read_lines] in *. subst. rewrite with_rom_id, zlen_nil, Z.add_0_r. reflexivity.
  - destruct (H 0%nat t eq_refl st i Hh ltac:(lia) Hb Hl) as (r1 & E1 & P1).
    replace (y + Z.of_nat 0 + 1) with (y + 1) in E1 by lia. replace (A + Z.of_nat 0 * size) with A in P1 by lia.
    cbn [read_lines]. rewrite E1. cbn [checked bind].
    destruct (IH (y + 1) (A + size) size (mkrs (Some name) (y + 1) (r_code st) (r_code_line st) (with_rom (r_cart st) r1)) (i + 1))
      as (r2 & E2 & P2); [exact Hs| |reflexivity|reflexivity| | |].
    + intros k t' Hk. specialize (H (S k) t' Hk). replace (y + 1 + Z.of_nat k) with (y + Z.of_nat (S k)) by lia.
      replace (A + size + Z.of_nat k * size) with (A + Z.of_nat (S k) * size) by lia. exact H.
    + apply P1.
    + cbn. destruct P1 as (P1 & _). lia.
    + rewrite E2. exists r2. cbn [r_code r_code_line r_cart] in *. rewrite with_rom_rom, zlen_cons. split.
      * replace (y + 1 + zlen texts) with (y + (1 + zlen texts)) by lia. reflexivity.
      * replace ((1 + zlen texts) * size) with (size + zlen texts * size) by lia.
        eapply patched_trans; [exact Hs|pose proof (zlen_nonneg texts); nia|exact P1|exact P2].
Qed.

Lemma needed_spec : forall rom d addr size n k, (needed_lines rom d addr size n <= k < n)%nat ->
  get_block rom (addr (Z.of_nat k)) size = get_block d (addr (Z.of_nat k)) size.
Proof.
  induction n as [|n IH]; intros k H; [lia|]. cbn [needed_lines] in H.
  destruct (cmpeqwith8 rom (addr (Z.of_nat n)) size d) eqn:E; [|lia].
  destruct (Nat.eq_dec k n) as [->|]; [apply zeqb_list_true; exact E|apply IH; lia].
Qed.
Lemma needed_le : forall rom d addr size n, (needed_lines rom d addr size n <= n)%nat.
Proof. induction n as [|n IH]; [apply le_n|]. cbn. destruct (cmpeqwith8 _ _ _ _); [lia|apply le_n]. Qed.
Lemma block_mget : forall a b s n i, get_block a s n = get_block b s n -> 0 <= s -> s <= i < s + n -> mget a i = mget b i.
Proof.
  intros a b s n i E Hs Hi. unfold get_block, slice in E.
  apply (f_equal (fun l => nth (Z.to_nat (i - s)) l 0)) in E. rewrite !nth_firstn in E by lia. rewrite !nth_skipn in E.
  unfold mget. replace (Z.to_nat s + Z.to_nat (i - s))%nat with (Z.to_nat i) in E by lia. exact E.
Qed.

Lemma good_chars : forall t, Forall (fun c => 32 <= c) t -> good_line t.
Proof.
  intros t F. split.
  - intros K. pose proof (proj1 (Forall_forall _ _) F _ K). cbn in H. lia.
  - intros r ->. apply Forall_app in F as [_ F]. inversion F. lia.
Qed.
Lemma good_header : forall name, ~ In 10 name -> good_line (header_line name).
Proof.
  intros name H. split.
  - intros K. unfold header_line, under in K. repeat (apply in_app_or in K; destruct K as [K|K]); auto;
      repeat (destruct K as [K|K]; try discriminate K); auto.
  - intros r E. unfold header_line, under in E. change [95; 95] with ([95] ++ [95]) in E at 2. rewrite !app_assoc in E.
    apply app_inj_tail in E as [_ E]. discriminate E.
Qed.

(** A whole section: afterwards the section's part of the rom is [m]'s. *)
Lemma section_reads : forall name m d on addr A size N text st i,
  0 < size -> 0 <= A -> (forall y, 0 <= y < Z.of_nat N -> addr y = A + y * size) -> A + Z.of_nat N * size <= 0x4300 ->
  ~ In 10 name -> bytes_ok d ->
  (forall y, 0 <= y < Z.of_nat N -> exists t, text y = Ok t /\ good_line t /\ row_reads name m t y (A + y * size) size) ->
  bytes_ok (c_rom (r_cart st)) -> zlen (c_rom (r_cart st)) = 0x4300 ->
  (forall j, A <= j < A + Z.of_nat N * size -> mget (c_rom (r_cart st)) j = mget d j) ->
  exists ls h y rom', section_lines on name (needed_lines m d addr size N) text = Ok ls /\ Forall good_line ls /\
    rls st i ls = Ok (mkrs h y (r_code st) (r_code_line st) (with_rom (r_cart st) rom')) /\
    patched (c_rom (r_cart st)) m A (if on then Z.of_nat N * size else 0) rom'.
Proof.
  intros name m d on addr A size N text st i Hs HA Haddr Hfit Hname Hd Hrow Hb Hl Hdef.
  pose proof (needed_le m d addr size N) as Hle. pose proof (needed_spec m d addr size N) as Hspec.
  set (n := needed_lines m d addr size N) in *.
  assert (Rest : forall j, A + Z.of_nat n * size <= j < A + Z.of_nat N * size -> mget m j = mget (c_rom (r_cart st)) j).
  { intros j Hj. rewrite Hdef by nia. set (k := Z.to_nat ((j - A) / size)).
    assert (Hq : Z.of_nat k = (j - A) / size) by (unfold k; rewrite Z2Nat.id; [reflexivity|apply Z.div_pos; nia]).
    pose proof (Z.div_mod (j - A) size ltac:(lia)) as D. pose proof (Z.mod_pos_bound (j - A) size Hs) as D2.
    assert (K1 : Z.of_nat n <= Z.of_nat k) by (rewrite Hq; apply Z.div_le_lower_bound; nia).
    assert (K2 : Z.of_nat k < Z.of_nat N) by (rewrite Hq; apply Z.div_lt_upper_bound; nia).
    specialize (Hspec k ltac:(lia)). rewrite Haddr in Hspec by lia.
    apply (block_mget m d (A + Z.of_nat k * size) size); [exact Hspec|nia|]. rewrite Hq. nia. }
  unfold section_lines. destruct on; cbn [andb].
  2:{ exists [], (r_header st), (r_y st), (c_rom (r_cart st)). split; [reflexivity|]. split; [constructor|]. split; [|apply patched_nil; assumption].
      cbn [read_lines]. rewrite with_rom_id. destruct st; reflexivity. }
  destruct (Nat.eqb_spec n 0) as [Z0|NZ]; cbn [negb].
  { exists [], (r_header st), (r_y st), (c_rom (r_cart st)). split; [reflexivity|]. split; [constructor|]. split.
    - cbn [read_lines]. rewrite with_rom_id. destruct st; reflexivity.
    - split; [reflexivity|]. split; [assumption|]. intros j Hj. destruct (_ && _) eqn:E; [|reflexivity]. symmetry. apply Rest. lia. }
  assert (T : exists f, forall y, 0 <= y < Z.of_nat N -> text y = Ok (f y) /\ good_line (f y) /\ row_reads name m (f y) y (A + y * size) size).
  { exists (fun y => match text y with Ok t => t | Err _ => [] end). intros y Hy. destruct (Hrow y Hy) as (t & E & G & R). rewrite E. auto. }
  destruct T as (f & T).
  rewrite (map_res_ok text f) by (intros x Hx; apply T; apply zrange_In in Hx; lia). cbn [bind].
  destruct (rows_read name m (map f (zrange_from 0 n)) 0 A size
    (mkrs (Some name) 0 (r_code st) (r_code_line st) (r_cart st)) (i + 1)) as (rom' & E & P); [lia| |reflexivity|reflexivity|exact Hb|exact Hl|].
  { intros k t Hk. rewrite nth_error_map in Hk. destruct (nth_error (zrange_from 0 n) k) as [z|] eqn:Ez; [|discriminate Hk].
    cbn in Hk. assert (f z = t) by congruence. subst t. clear Hk.
    assert (z = Z.of_nat k /\ (k < n)%nat) as [-> Hk].
    { assert (Hk : (k < n)%nat) by (rewrite <- (zrange_length 0 n); apply nth_error_Some; congruence).
      split; [|exact Hk]. unfold zrange_from in Ez. rewrite nth_error_map in Ez.
      rewrite nth_error_nth' with (d := 0%nat) in Ez by (rewrite seq_length; exact Hk). rewrite seq_nth in Ez by exact Hk. cbn in Ez.
      injection Ez as <-. lia. }
    apply T. lia. }
  { eexists _, _, _, rom'. split; [reflexivity|]. split; [|split].
      - constructor; [apply good_header; exact Hname|]. apply Forall_forall. intros t Ht. apply in_map_iff in Ht as (y & <- & Hy).
        apply zrange_In in Hy. apply T. lia.
      - cbn [read_lines]. rewrite read_header by exact Hname. cbn [checked bind].
        rewrite E. reflexivity.
      - cbn [r_cart] in P. unfold zlen in P. rewrite map_length, zrange_length in P. destruct P as (P1 & P2 & P3).
        split; [exact P1|]. split; [exact P2|]. intros j Hj. rewrite P3 by exact Hj.
        destruct ((A <=? j) && (j <? A + Z.of_nat n * size)) eqn:E1;
          destruct ((A <=? j) && (j <? A + Z.of_nat N * size)) eqn:E2; try reflexivity.
        + exfalso. nia.
        + symmetry. apply Rest. lia. }
Qed.

(** A row of characters without whitespace. *)
Definition row_text (t : list Z) : Prop := t <> [] /\ hd 0 t <> 95 /\ strip t = t.
Lemma row_text_hex : forall t, t <> [] -> Forall (fun c => 48 <= c <= 118 /\ c <> 95) t -> row_text t.
Proof.
  intros t N F. split; [exact N|]. split.
  - destruct F as [|c t H _]; [contradiction|]. cbn. lia.
  - apply strip_none. eapply Forall_impl; [|exact F]. intros c Hc. cbn beta in Hc. unfold py_isspace. lia.
Qed.
Lemma good_hex : forall t, Forall (fun c => 48 <= c <= 118 /\ c <> 95) t -> good_line t.
Proof. intros t F. apply good_chars. eapply Forall_impl; [|exact F]. cbn. intros. lia. Qed.
Lemma nonempty_eqb : forall t : list Z, t <> [] -> negb (zeqb_list t []) = true.
Proof. intros [|c t] H; [contradiction|reflexivity]. Qed.

Context (m : list Z) (Hm : bytes_ok m) (Lm : zlen m = 0x4300).

Lemma pairs_range : forall (g : Z -> Z) k j, map g (zrange_from (2 * j) (2 * k)) = concat (map (fun j => [g (2 * j); g (2 * j + 1)]) (zrange_from j k)).
Proof.
  intros g k. induction k as [|k IH]; intros j; [reflexivity|].
  replace (2 * S k)%nat with (S (S (2 * k))) by lia. rewrite !zrange_S. cbn [map concat app].
  replace (2 * j + 1 + 1) with (2 * (j + 1)) by lia. rewrite IH. reflexivity.
Qed.
Definition gfx_chars (y j : Z) : list Z := [hexc (mget m (y * 0x40 + j) mod 16); hexc (mget m (y * 0x40 + j) / 16)].
Lemma gfx_text_ok : forall y, 0 <= y < 0x80 -> gfx_text m y = Ok (concat (map (gfx_chars y) (zrange_from 0 64))).
Proof.
  intros y Hy. unfold gfx_text.
  rewrite (map_res_ok _ (fun x => hexc (nib_get (mget m (y * 64 + x / 2)) (x mod 2)))).
  2:{ intros x Hx. apply zrange_In in Hx. rewrite sprite_addr_eq by lia. rewrite get4_ok by (assumption || lia). reflexivity. }
  rewrite (pairs_range _ 64 0). apply (f_equal (fun l => Ok (concat l))), map_ext_in. intros j Hj. apply zrange_In in Hj. unfold gfx_chars.
  replace (2 * j / 2) with j by lia. replace (2 * j mod 2) with 0 by lia.
  replace ((2 * j + 1) / 2) with j by lia. replace ((2 * j + 1) mod 2) with 1 by lia. reflexivity.
Qed.
Lemma gfx_row_chars : forall y l, Forall (fun c => 48 <= c <= 118 /\ c <> 95) (concat (map (gfx_chars y) l)).
Proof.
  intros y l. apply Forall_forall. intros c Hc. apply in_concat in Hc as (p & Hp & Hc). apply in_map_iff in Hp as (j & <- & _).
    pose proof (mget_byte m (y * 0x40 + j) Hm).
    destruct Hc as [<-|[<-|[]]]; match goal with |- context [hexc ?d] => pose proof (hexc_plain d ltac:(lia)) end; lia.
Qed.
Lemma gfx_row_text : forall y l, l <> [] -> row_text (concat (map (gfx_chars y) l)).
Proof. intros y l Hl. apply row_text_hex; [destruct l; [contradiction|discriminate]|apply gfx_row_chars]. Qed.
Lemma rl_gfx : forall st i t y, row_text t -> r_header st = Some str_gfx -> r_y st = y -> 0 <= y < 0x80 ->
  rl st i t = (rom <- gfx_row int16 (c_rom (r_cart st)) y 0 t ;;
               Ok (mkrs (Some str_gfx) (y + 1) (r_code st) (r_code_line st) (with_rom (r_cart st) rom))).
Proof.
  intros st i t y (R1 & R2 & R3) Hh Hyy Hy.
  unfold read_line. rewrite R3, Hh, Hyy. rewrite not_under_starts by exact R2. rewrite nonempty_eqb by exact R1.
  change (is_header (Some str_gfx) str_lua) with false. change (is_header (Some str_gfx) str_gfx) with true. cbn [andb].
  replace (y <? 0x80) with true by lia. reflexivity.
Qed.
Lemma zrange_nonempty : forall a n, n <> O -> zrange_from a n <> [].
Proof. intros a n H. destruct n; [contradiction|]. rewrite zrange_S. discriminate. Qed.
Lemma gfx_reads : forall y, 0 <= y < 0x80 -> exists t, gfx_text m y = Ok t /\ good_line t /\ row_reads str_gfx m t y (0 + y * 0x40) 0x40.
Proof.
  intros y Hy. rewrite gfx_text_ok by assumption. eexists. split; [reflexivity|]. split; [apply good_hex, gfx_row_chars|].
  intros st i Hh Hyy Hb Hl.
  destruct (gfx_row_ok int16 H16 m Hm 64 (c_rom (r_cart st)) y 0 Hb ltac:(lia) ltac:(lia) ltac:(lia) ltac:(lia)) as (rom' & E & P).
  exists rom'. split; [|replace (0 + y * 64) with (y * 64 + 0) by lia; exact P].
  rewrite (rl_gfx _ _ _ y) by (try assumption; apply gfx_row_text; apply zrange_nonempty; discriminate).
  change (2 * 0) with 0 in E. unfold gfx_chars. rewrite E. reflexivity.
Qed.

(** Rows of bytes *)
Lemma bytes_text_ok : forall addr n, (forall x, 0 <= x < Z.of_nat n -> 0 <= addr x < 0x4300) ->
  bytes_text addr m n = Ok (concat (map (fun x => hex2 (mget m (addr x))) (zrange_from 0 n))).
Proof.
  intros addr n H. unfold bytes_text. rewrite (map_res_ok _ (fun x => hex2 (mget m (addr x)))); [reflexivity|].
  intros x Hx. apply zrange_In in Hx. rewrite get8_ok by (rewrite Lm; apply H; lia). reflexivity.
Qed.
Lemma hex2_chars : forall b, 0 <= b < 256 -> Forall (fun c => 48 <= c <= 118 /\ c <> 95) (hex2 b).
Proof.
  intros b H. unfold hex2. pose proof (hexc_plain (b / 16) ltac:(lia)). pose proof (hexc_plain (b mod 16) ltac:(lia)).
  constructor; [lia|]. constructor; [lia|constructor].
Qed.
Lemma hex2s_chars : forall (addr : Z -> Z) l, Forall (fun c => 48 <= c <= 118 /\ c <> 95) (concat (map (fun x => hex2 (mget m (addr x))) l)).
Proof.
  intros addr l. induction l as [|x l IH]; [constructor|]. cbn [map concat]. apply Forall_app. split; [|exact IH].
  apply hex2_chars. apply mget_byte. exact Hm.
Qed.
Lemma hex2s_groups : forall f (l : list Z), groups_of 2 (concat (map (fun x => hex2 (f x)) l)) = map (fun x => hex2 (f x)) l.
Proof.
  intros f l. apply groups_concat; [lia|]. apply Forall_forall. intros p Hp. apply in_map_iff in Hp as (x & <- & _). reflexivity.
Qed.
Lemma rl_map : forall st i t y, row_text t -> r_header st = Some str_map -> r_y st = y -> 0 <= y < 0x40 ->
  rl st i t = (rom <- byte_row int16 (fun x => mem_map_addr x y) (c_rom (r_cart st)) 0 (groups_of 2 t) ;;
               Ok (mkrs (Some str_map) (y + 1) (r_code st) (r_code_line st) (with_rom (r_cart st) rom))).
Proof.
  intros st i t y (R1 & R2 & R3) Hh Hyy Hy.
  unfold read_line. rewrite R3, Hh, Hyy. rewrite not_under_starts by exact R2. rewrite nonempty_eqb by exact R1.
  change (is_header (Some str_map) str_lua) with false. change (is_header (Some str_map) str_gfx) with false.
  change (is_header (Some str_map) str_map) with true. cbn [andb].
  replace (y <? 0x40) with true by lia. reflexivity.
Qed.
Lemma rl_gff : forall st i t y, row_text t -> r_header st = Some str_gff -> r_y st = y -> 0 <= y < 2 ->
  rl st i t = (rom <- byte_row int16 (fun x => mem_flag_addr x y) (c_rom (r_cart st)) 0 (groups_of 2 t) ;;
               Ok (mkrs (Some str_gff) (y + 1) (r_code st) (r_code_line st) (with_rom (r_cart st) rom))).
Proof.
  intros st i t y (R1 & R2 & R3) Hh Hyy Hy.
  unfold read_line. rewrite R3, Hh, Hyy. rewrite not_under_starts by exact R2. rewrite nonempty_eqb by exact R1.
  change (is_header (Some str_gff) str_lua) with false. change (is_header (Some str_gff) str_gfx) with false.
  change (is_header (Some str_gff) str_map) with false. change (is_header (Some str_gff) str_gff) with true. cbn [andb].
  replace (y <? 2) with true by lia. reflexivity.
Qed.
Lemma rl_sfx : forall st i t y, row_text t -> r_header st = Some str_sfx -> r_y st = y -> 0 <= y < 0x40 ->
  rl st i t = (rom <- info_row int16 (c_rom (r_cart st)) y 0 (groups_of 2 (firstn 8 t)) ;;
               rom <- note_row int16 rom y 0 (groups_of 5 (skipn 8 t)) ;;
               Ok (mkrs (Some str_sfx) (y + 1) (r_code st) (r_code_line st) (with_rom (r_cart st) rom))).
Proof.
  intros st i t y (R1 & R2 & R3) Hh Hyy Hy.
  unfold read_line. rewrite R3, Hh, Hyy. rewrite not_under_starts by exact R2. rewrite nonempty_eqb by exact R1.
  change (is_header (Some str_sfx) str_lua) with false. change (is_header (Some str_sfx) str_gfx) with false.
  change (is_header (Some str_sfx) str_map) with false. change (is_header (Some str_sfx) str_gff) with false.
  change (is_header (Some str_sfx) str_sfx) with true. cbn [andb]. replace (y <? 0x40) with true by lia. reflexivity.
Qed.
Lemma rl_music : forall st i t y, row_text t -> r_header st = Some str_music -> r_y st = y -> 0 <= y < 0x40 ->
  rl st i t = (flags <- int_ int16 (ljust0 2 (firstn 2 t)) ;;
               rom <- music_row int16 (c_rom (r_cart st)) flags y 0 (groups_of 2 (skipn 3 t)) ;;
               Ok (mkrs (Some str_music) (y + 1) (r_code st) (r_code_line st) (with_rom (r_cart st) rom))).
Proof.
  intros st i t y (R1 & R2 & R3) Hh Hyy Hy.
  unfold read_line. rewrite R3, Hh, Hyy. rewrite not_under_starts by exact R2. rewrite nonempty_eqb by exact R1.
  change (is_header (Some str_music) str_lua) with false. change (is_header (Some str_music) str_gfx) with false.
  change (is_header (Some str_music) str_map) with false. change (is_header (Some str_music) str_gff) with false.
  change (is_header (Some str_music) str_sfx) with false. change (is_header (Some str_music) str_music) with true.
  cbn [andb]. replace (y <? 0x40) with true by lia. reflexivity.
Qed.
Lemma hex2s_row : forall (addr : Z -> Z) l, l <> [] -> row_text (concat (map (fun x => hex2 (mget m (addr x))) l)).
Proof. intros addr l H. apply row_text_hex; [destruct l; [contradiction|discriminate]|apply hex2s_chars]. Qed.
Lemma map_reads : forall y, 0 <= y < 0x20 ->
  exists t, bytes_text (fun x => mem_map_addr x y) m 128 = Ok t /\ good_line t /\ row_reads str_map m t y (0x2000 + y * 0x80) 0x80.
Proof.
  intros y Hy. assert (Ad : forall x, mem_map_addr x y = 0x2000 + y * 0x80 + x).
  { intros x. unfold mem_map_addr, k_mem_map_addr. destruct (Z.leb_spec 0x20 y); lia. }
  rewrite bytes_text_ok by (intros x Hx; rewrite Ad; lia). eexists. split; [reflexivity|]. split; [apply good_hex, hex2s_chars|].
  intros st i Hh Hyy Hb Hl.
  destruct (byte_row_ok int16 H16 m Hm 128 (fun x => mem_map_addr x y) (0x2000 + y * 0x80) (c_rom (r_cart st)) 0) as (rom' & E & P);
    try assumption; try lia; try (intros; apply Ad).
  exists rom'. split; [|rewrite Z.add_0_r in P; exact P].
  rewrite (rl_map _ _ _ y) by (try assumption; try lia; apply hex2s_row, zrange_nonempty; discriminate).
  rewrite hex2s_groups, E. reflexivity.
Qed.
Lemma gff_reads : forall y, 0 <= y < 2 ->
  exists t, bytes_text (fun x => mem_flag_addr x y) m 128 = Ok t /\ good_line t /\ row_reads str_gff m t y (0x3000 + y * 0x80) 0x80.
Proof.
  intros y Hy. assert (Ad : forall x, mem_flag_addr x y = 0x3000 + y * 0x80 + x) by (intros; unfold mem_flag_addr, k_mem_flag_addr; lia).
  rewrite bytes_text_ok by (intros x Hx; rewrite Ad; lia). eexists. split; [reflexivity|]. split; [apply good_hex, hex2s_chars|].
  intros st i Hh Hyy Hb Hl.
  destruct (byte_row_ok int16 H16 m Hm 128 (fun x => mem_flag_addr x y) (0x3000 + y * 0x80) (c_rom (r_cart st)) 0) as (rom' & E & P);
    try assumption; try lia; try (intros; apply Ad).
  exists rom'. split; [|rewrite Z.add_0_r in P; exact P].
  rewrite (rl_gff _ _ _ y) by (try assumption; try lia; apply hex2s_row, zrange_nonempty; discriminate).
  rewrite hex2s_groups, E. reflexivity.
Qed.

Lemma patched_swap : forall rom m a k n r1 r2, 0 <= k -> 0 <= n -> patched rom m (a + k) n r1 -> patched r1 m a k r2 -> patched rom m a (k + n) r2.
Proof.
  clear. intros rom m a k n r1 r2 Hk Hn (L1 & B1 & E1) (L2 & B2 & E2). split; [congruence|]. split; [assumption|].
  intros i Hi. rewrite E2, E1 by assumption.
  destruct ((a + k <=? i) && (i <? a + k + n)) eqn:X; destruct ((a <=? i) && (i <? a + k)) eqn:Y;
    destruct ((a <=? i) && (i <? a + (k + n))) eqn:W; try reflexivity; lia.
Qed.
Lemma sfx_reads : forall y, 0 <= y < 0x40 -> exists t, sfx_text m y = Ok t /\ good_line t /\ row_reads str_sfx m t y (0x3200 + y * 0x44) 0x44.
Proof.
  intros y Hy. assert (Ai : forall x, mem_sfx_info_addr y x = 0x3200 + y * 0x44 + 0x40 + x) by
    (intros; unfold mem_sfx_info_addr, mem_sfx_addr, k_mem_sfx_addr; lia).
  assert (An : forall x, mem_sfx_addr y x = 0x3200 + y * 0x44 + 2 * x) by (intros; unfold mem_sfx_addr, k_mem_sfx_addr; lia).
  unfold sfx_text. rewrite bytes_text_ok by (intros x Hx; rewrite Ai; lia). cbn [bind].
  set (nt := fun x => note_text (mget m (mem_sfx_addr y x) + mget m (mem_sfx_addr y x + 1) * 256)).
  rewrite (map_res_ok _ nt).
  2:{ intros x Hx. apply zrange_In in Hx. rewrite get16_ok by (try assumption; rewrite An; lia). reflexivity. }
  cbn [bind]. eexists. split; [reflexivity|].
  assert (Li : forall g : Z -> Z, length (concat (map (fun x => hex2 (g x)) (zrange_from 0 4))) = 8%nat) by reflexivity.
  pose proof (hex2s_chars (fun x => mem_sfx_info_addr y x) (zrange_from 0 4)) as Fi. cbn beta in Fi.
  specialize (Li (fun x => mget m (mem_sfx_info_addr y x))). cbn beta in Li.
  pose proof (hex2s_groups (fun x => mget m (mem_sfx_info_addr y x)) (zrange_from 0 4)) as Gi. cbn beta in Gi.
  assert (Fn : Forall (fun c => 48 <= c <= 118 /\ c <> 95) (concat (map nt (zrange_from 0 32)))).
  { apply Forall_forall. intros c Hc. apply in_concat in Hc as (p & Hp & Hc). apply in_map_iff in Hp as (x & <- & _).
    pose proof (mget_byte m (mem_sfx_addr y x) Hm). pose proof (mget_byte m (mem_sfx_addr y x + 1) Hm). unfold nt in Hc.
    destruct (note_text_ok (mget m (mem_sfx_addr y x) + mget m (mem_sfx_addr y x + 1) * 256) ltac:(lia)) as (a & b & c' & d & e & E & F & _).
    rewrite E in Hc. apply in_map_iff in Hc as (z & <- & Hz). pose proof (proj1 (Forall_forall _ _) F z Hz). pose proof (hexc_plain z ltac:(assumption)). lia. }
  assert (Gn : groups_of 5 (concat (map nt (zrange_from 0 32))) = map nt (zrange_from 0 32)).
  { apply groups_concat; [lia|]. apply Forall_forall. intros p Hp. apply in_map_iff in Hp as (x & <- & _). reflexivity. }
  split; [apply good_hex, Forall_app; split; assumption|].
  intros st i Hh Hyy Hb Hl.
  destruct (info_row_ok int16 H16 m Hm 4 (c_rom (r_cart st)) y 0 Hb ltac:(lia) ltac:(lia) ltac:(rewrite Ai; lia)) as (r1 & E1 & P1).
  destruct (note_row_ok int16 H16 m Hm 32 r1 y 0 ltac:(apply P1) ltac:(lia) ltac:(lia) ltac:(lia)
    ltac:(rewrite An; destruct P1 as (P1 & _); lia)) as (r2 & E2 & P2).
  fold nt in E2.
  generalize dependent (concat (map (fun x => hex2 (mget m (mem_sfx_info_addr y x))) (zrange_from 0 4))). intros info Li Fi Gi.
  generalize dependent (concat (map nt (zrange_from 0 32))). intros notes Fn Gn.
  exists r2. split.
  - rewrite (rl_sfx _ _ _ y); try assumption.
    2:{ apply row_text_hex; [destruct info; [cbn in Li; lia|discriminate]|]. apply Forall_app. split; assumption. }
    assert (F8 : firstn 8 (info ++ notes) = info) by (rewrite <- Li, firstn_app, Nat.sub_diag, firstn_O, firstn_all, app_nil_r; reflexivity).
    assert (S8 : skipn 8 (info ++ notes) = notes) by (rewrite <- Li, skipn_app, Nat.sub_diag, skipn_O, skipn_all; reflexivity).
    rewrite F8, S8. clear F8 S8.
    rewrite Gi, E1. cbn [bind]. rewrite Gn, E2. reflexivity.
  - rewrite An in P2. rewrite Ai in P1. change (2 * Z.of_nat 32) with 0x40 in P2. change (Z.of_nat 4) with 4 in P1.
    replace (0x3200 + y * 0x44 + 2 * 0) with (0x3200 + y * 0x44) in P2 by lia.
    replace (0x3200 + y * 0x44 + 0x40 + 0) with (0x3200 + y * 0x44 + 0x40) in P1 by lia.
    change 0x44 with (0x40 + 4) at 2. eapply patched_swap; [lia|lia|exact P1|exact P2].
Qed.
Lemma music_reads : forall y, 0 <= y < 0x40 -> exists t, music_text m y = Ok t /\ good_line t /\ row_reads str_music m t y (0x3100 + y * 4) 4.
Proof.
  intros y Hy. assert (Ad : forall x, mem_music_addr y x = 0x3100 + y * 4 + x) by (intros; unfold mem_music_addr, k_mem_music_addr; lia).
  unfold music_text. rewrite (map_res_ok _ (fun x => mget m (mem_music_addr y x))).
  2:{ intros x Hx. apply zrange_In in Hx. apply get8_ok. rewrite Ad. lia. }
  cbn [bind]. change (zrange_from 0 4) with [0; 1; 2; 3]. cbn [map].
  set (ch x := mget m (mem_music_addr y x)). eexists. split; [reflexivity|].
  change (concat [hex2 (Z.land (ch 0) 127); hex2 (Z.land (ch 1) 127); hex2 (Z.land (ch 2) 127); hex2 (Z.land (ch 3) 127)])
    with (concat (map (fun c => hex2 (Z.land c 0x7f)) [ch 0; ch 1; ch 2; ch 3])).
  set (f := music_flags _). set (ids := concat _).
  assert (Q : forall c, 0 <= Z.land c 0x7f < 256).
  { intros c. change 0x7f with (Z.ones 7). rewrite Z.land_ones by lia. change (2 ^ 7) with 128. lia. }
  assert (Hf : 0 <= f < 16).
  { destruct (music_row_ok int16 H16 m Hm m y Hm ltac:(lia) ltac:(rewrite Ad; lia)) as (Hf & _). exact Hf. }
  split.
  { apply good_chars. unfold hex2, ids. cbn [app map concat hex2].
    pose proof (Q (ch 0)) as Q0. pose proof (Q (ch 1)) as Q1. pose proof (Q (ch 2)) as Q2. pose proof (Q (ch 3)) as Q3. unfold ch in Q0, Q1, Q2, Q3.
    repeat (apply Forall_cons; [first [lia | match goal with |- context [hexc ?d] => pose proof (hexc_plain d ltac:(lia)); lia end]|]).
    constructor. }
  intros st i Hh Hyy Hb Hl.
  destruct (music_row_ok int16 H16 m Hm (c_rom (r_cart st)) y Hb ltac:(lia) ltac:(rewrite Ad; lia)) as (_ & rom' & E & P).
  exists rom'. split; [|rewrite Ad, Z.add_0_r in P; exact P].
  assert (S : strip (hex2 f ++ [32] ++ ids) = hex2 f ++ [32] ++ ids).
  { unfold hex2, ids. cbn [app map concat hex2].
    match goal with |- strip (?a :: ?b :: 32 :: ?c :: ?d :: ?e :: ?g :: ?h :: ?k :: ?l :: [?o]) = _ =>
      change (strip (a :: [b; 32; c; d; e; g; h; k; l] ++ [o]) = a :: [b; 32; c; d; e; g; h; k; l] ++ [o]) end.
    apply strip_ends; apply hexc_nospace; [lia|pose proof (Q (ch 3)); lia]. }
  cbv zeta in E. fold ch in E. fold f in E.
  pose proof (hexc_plain (f / 16) ltac:(lia)) as [_ Hu].
  pose proof (hex2s_groups (fun c => Z.land c 0x7f) [ch 0; ch 1; ch 2; ch 3]) as G.
  rewrite (rl_music _ _ _ y); try assumption.
  2:{ split; [discriminate|]. split; [exact Hu|exact S]. }
  change (firstn 2 (hex2 f ++ [32] ++ ids)) with (hex2 f). change (ljust0 2 (hex2 f)) with (hex2 f).
  rewrite (int16_2 int16 H16) by lia. cbn [bind]. change (skipn 3 (hex2 f ++ [32] ++ ids)) with ids.
  change ids with (concat (map (fun c => hex2 (Z.land c 0x7f)) [ch 0; ch 1; ch 2; ch 3])). rewrite G. unfold ch. rewrite E. reflexivity.
Qed.
End Read.
