(** Lemmas on the .p8 text format: lines and rows. *)
From Verif Require Import M_Base L_Util M_Memory L_Memory M_Compress M_Charset L_Charset M_Fold S_Fold L_Fold M_Rom M_Text S_Num S_Text.
Open Scope Z_scope.
Ltac Zify.zify_post_hook ::= Z.div_mod_to_equations.

(** *** Lines *)
Lemma split_nl_line : forall l cur s, ~ In 10 l ->
  split_nl cur (l ++ 10 :: s) = rev (drop_cr (rev l ++ cur)) :: split_nl [] s.
Proof.
  induction l as [|c l IH]; intros cur s H; [reflexivity|].
  cbn [app split_nl]. destruct (Z.eqb_spec c 10) as [->|]; [exfalso; apply H; left; reflexivity|].
  rewrite IH by (intros K; apply H; right; exact K). cbn [rev]. rewrite <- app_assoc. reflexivity.
Qed.
Lemma drop13_id : forall (l : list Z), (forall r, l <> r ++ [13]) -> rev (drop_cr (rev l)) = l.
Proof.
  intros l H. destruct (rev l) as [|x r] eqn:E; [rewrite <- (rev_involutive l), E; reflexivity|].
  assert (L : l = rev r ++ [x]) by (rewrite <- (rev_involutive l), E; reflexivity).
  cbn [drop_cr]. destruct (Z.eqb_spec x 13) as [->|N]; [exfalso; exact (H _ L)|]. symmetry. exact L.
Qed.
Definition good_line (l : list Z) : Prop := ~ In 10 l /\ forall r, l <> r ++ [13].
Lemma split_join : forall ls, Forall good_line ls -> p8_split_lines (join_nl ls) = ls.
Proof.
  intros ls H. unfold p8_split_lines.
  assert (E : split_nl [] (join_nl ls) = ls ++ [[]]).
  { induction H as [|l ls [H1 H2] _ IH]; [reflexivity|]. unfold join_nl. cbn [map concat]. rewrite <- app_assoc. cbn [app].
    rewrite split_nl_line by exact H1. rewrite app_nil_r, drop13_id by exact H2. fold (join_nl ls). rewrite IH. reflexivity. }
  rewrite E, rev_app_distr. cbn [rev app]. apply rev_involutive.
Qed.
Lemma join_app : forall a b, join_nl (a ++ b) = join_nl a ++ join_nl b.
Proof. intros. unfold join_nl. rewrite map_app, concat_app. reflexivity. Qed.

(** The lines of a text. *)
Fixpoint lines_of (s : list Z) : list (list Z) :=
  match s with
  | [] => [[]]
  | c :: t => if c =? 10 then [] :: lines_of t else match lines_of t with l :: r => (c :: l) :: r | [] => [[c]] end
  end.
Lemma lines_of_some : forall s, exists l r, lines_of s = l :: r.
Proof.
  induction s as [|c s [l [r IH]]]; [eexists _, _; reflexivity|]. cbn. destruct (c =? 10); [eexists _, _; reflexivity|].
  rewrite IH. eexists _, _. reflexivity.
Qed.
Lemma lines_of_join : forall s, join_nl (lines_of s) = s ++ [10].
Proof.
  induction s as [|c s IH]; [reflexivity|]. cbn. destruct (Z.eqb_spec c 10) as [->|].
  - unfold join_nl in *. cbn. rewrite IH. reflexivity.
  - destruct (lines_of s) as [|l r]; [destruct s; discriminate IH|]. unfold join_nl in *. cbn in *. rewrite IH. reflexivity.
Qed.
Lemma lines_of_no10 : forall s, Forall (fun l => ~ In 10 l) (lines_of s).
Proof.
  induction s as [|c s IH]; [repeat constructor; tauto|]. cbn. destruct (Z.eqb_spec c 10) as [->|].
  - constructor; [tauto|exact IH].
  - destruct (lines_of s) as [|l r]; inversion_clear IH; repeat constructor; auto; intros [K|K]; auto; try contradiction.
Qed.
Lemma lines_of_are : forall s l, In l (lines_of s) -> is_line s l.
Proof.
  intros s l H. split; [|exact (proj1 (Forall_forall _ _) (lines_of_no10 s) l H)].
  apply in_split in H as [a [b E]]. pose proof (lines_of_join s) as J. rewrite E in J. rewrite join_app in J.
  unfold join_nl in J at 2. cbn [map concat] in J. fold (join_nl b) in J.
  assert (K : exists x, 10 :: join_nl a = x ++ [10]).
  { clear. induction a as [|l a IH] using rev_ind; [exists []; reflexivity|]. rewrite join_app. unfold join_nl at 2. cbn.
    rewrite app_nil_r. exists (10 :: join_nl a ++ l). cbn. rewrite app_assoc. reflexivity. }
  destruct K as [x K]. exists x, (join_nl b). rewrite <- J, app_comm_cons, K, <- !app_assoc. reflexivity.
Qed.
(** Joined without a final newline. *)
Lemma lines_of_code : forall s l r, lines_of s = l :: r -> s = l ++ concat (map (cons 10) r).
Proof.
  intros s l r E. pose proof (lines_of_join s) as J. rewrite E in J. unfold join_nl in J. cbn [map concat] in J.
  assert (K : forall r l, (l ++ [10]) ++ concat (map (fun l => l ++ [10]) r) = (l ++ concat (map (cons 10) r)) ++ [10]).
  { clear. induction r as [|x r IH]; intros l; cbn; [rewrite !app_nil_r; reflexivity|].
    rewrite IH. rewrite <- !app_assoc. cbn. rewrite <- !app_assoc. reflexivity. }
  rewrite K in J. apply app_inv_tail in J. symmetry. exact J.
Qed.

(** *** Strip *)
Lemma strip_ends : forall a m b, py_isspace a = false -> py_isspace b = false -> strip (a :: m ++ [b]) = a :: m ++ [b].
Proof.
  intros a m b Ha Hb. unfold strip, rstrip. cbn [lstrip]. rewrite Ha. cbn [rev]. rewrite rev_app_distr. cbn [rev app lstrip].
  rewrite Hb. cbn [rev]. rewrite rev_app_distr, rev_involutive. reflexivity.
Qed.
Lemma strip_one : forall a, py_isspace a = false -> strip [a] = [a].
Proof. intros a H. unfold strip, rstrip. cbn [lstrip]. rewrite H. cbn. rewrite H. reflexivity. Qed.
Lemma strip_none : forall l, Forall (fun c => py_isspace c = false) l -> strip l = l.
Proof.
  intros [|a l] H; [reflexivity|]. inversion_clear H. destruct l as [|b l] using rev_ind; [apply strip_one; assumption|].
  apply strip_ends; [assumption|]. apply Forall_app in H1 as [_ H1]. inversion_clear H1. assumption.
Qed.
Lemma lstrip_cons : forall s, s = [] \/ exists c t, lstrip s = c :: t /\ py_isspace c = false \/ lstrip s = [].
Proof. induction s as [|c s IH]; [auto|]. right. cbn. destruct (py_isspace c) eqn:E; [|exists c, s; auto]. destruct IH as [->|IH]; [exists 0, []; auto|exact IH]. Qed.

(** *** Characters of rows *)
Lemma hexc_digit : forall d, 0 <= d < 16 -> is_digit 16 (hexc d) /\ digit_value (hexc d) = d.
Proof. intros d H. unfold hexc, is_digit, digit_value. destruct (Z.ltb_spec d 10); [destruct (Z.ltb_spec (48 + d) 58)|destruct (Z.ltb_spec (87 + d) 58)]; lia. Qed.
Lemma hexc_nospace : forall d, 0 <= d < 16 -> py_isspace (hexc d) = false.
Proof. intros d H. unfold py_isspace, hexc. destruct (Z.ltb_spec d 10); lia. Qed.
Lemma hexc_plain : forall d, 0 <= d < 16 -> 48 <= hexc d <= 102 /\ hexc d <> 95.
Proof. intros d H. unfold hexc. destruct (Z.ltb_spec d 10); lia. Qed.

Lemma zrange_S : forall a n, zrange_from a (S n) = a :: zrange_from (a + 1) n.
Proof.
  intros a n. unfold zrange_from. cbn [seq map]. f_equal; [lia|]. rewrite <- seq_shift, map_map. apply map_ext. intros. lia.
Qed.
Lemma zrange_snoc : forall a n, zrange_from a (S n) = zrange_from a n ++ [a + Z.of_nat n].
Proof. intros. unfold zrange_from. rewrite seq_S, map_app. reflexivity. Qed.
Lemma zrange_In : forall a n x, In x (zrange_from a n) <-> a <= x < a + Z.of_nat n.
Proof.
  intros. unfold zrange_from. rewrite in_map_iff. split.
  - intros [i [<- H]]. apply in_seq in H. lia.
  - intros H. exists (Z.to_nat (x - a)). split; [lia|]. apply in_seq. lia.
Qed.
Lemma zrange_length : forall a n, length (zrange_from a n) = n.
Proof. intros. unfold zrange_from. rewrite map_length, seq_length. reflexivity. Qed.
Lemma map_res_ok : forall {A B} (f : A -> res B) g l, (forall x, In x l -> f x = Ok (g x)) -> map_res f l = Ok (map g l).
Proof.
  intros A B f g l. induction l as [|x l IH]; intros H; [reflexivity|]. cbn [map_res map].
  rewrite (H x) by (left; reflexivity). cbn [bind]. rewrite IH by (intros; apply H; right; assumption). reflexivity.
Qed.

(** Cutting a row into groups of equal length. *)
Lemma groups_concat : forall n ps, (0 < n)%nat -> Forall (fun p : list Z => length p = n) ps -> groups_of n (concat ps) = ps.
Proof.
  intros n ps Hn H. unfold groups_of.
  assert (G : forall ps fuel, Forall (fun p : list Z => length p = n) ps -> (length (concat ps) <= fuel)%nat -> groups fuel n (concat ps) = ps).
  { clear ps H. induction ps as [|p ps IH]; intros fuel H Hf; [destruct fuel; reflexivity|]. inversion_clear H.
    cbn [concat] in *. rewrite app_length in Hf.
    destruct fuel as [|fuel]; [lia|]. destruct (p ++ concat ps) as [|z zs] eqn:E.
    { apply (f_equal (@length Z)) in E. rewrite app_length in E. cbn in E. lia. }
    cbn [groups]. rewrite <- E. rewrite firstn_app, skipn_app, H0, Nat.sub_diag, firstn_O, skipn_O.
    rewrite <- H0 at 2 4. rewrite firstn_all, skipn_all, app_nil_r. cbn [app].
    rewrite IH by (assumption || lia). unfold ljust0. rewrite H0, Nat.sub_diag, app_nil_r. reflexivity. }
  apply G; [exact H|lia].
Qed.

(** *** Patches *)
Definition patched (rom m : list Z) (a n : Z) (rom' : list Z) : Prop :=
  zlen rom' = zlen rom /\ bytes_ok rom' /\
  forall i, 0 <= i -> mget rom' i = if (a <=? i) && (i <? a + n) then mget m i else mget rom i.
Lemma patched_nil : forall rom m a, bytes_ok rom -> patched rom m a 0 rom.
Proof. intros. split; [reflexivity|]. split; [assumption|]. intros i Hi. destruct (_ && _) eqn:E; [lia|reflexivity]. Qed.
Lemma patched_trans : forall rom m a n k r1 r2, 0 <= n -> 0 <= k -> patched rom m a n r1 -> patched r1 m (a + n) k r2 -> patched rom m a (n + k) r2.
Proof.
  intros rom m a n k r1 r2 Hn Hk (L1 & B1 & E1) (L2 & B2 & E2). split; [congruence|]. split; [assumption|].
  intros i Hi. rewrite E2, E1 by assumption.
  destruct ((a + n <=? i) && (i <? a + n + k)) eqn:X; destruct ((a <=? i) && (i <? a + n)) eqn:Y;
    destruct ((a <=? i) && (i <? a + (n + k))) eqn:W; try reflexivity; lia.
Qed.
Lemma patched_mset : forall rom m a v, bytes_ok rom -> 0 <= a < zlen rom -> v = mget m a -> bytes_ok m -> patched rom m a 1 (mset rom a v).
Proof.
  intros rom m a v Hr Ha -> Hm. split; [apply mset_len|]. split; [apply mset_bytes; [assumption|apply mget_byte; assumption]|].
  intros i Hi. rewrite mget_mset by assumption. destruct (Z.eqb_spec i a) as [->|]; destruct ((a <=? _) && _) eqn:E; try reflexivity; lia.
Qed.

Section Rows.
Context (int16 : list Z -> option Z) (H16 : hex_reader int16).
Lemma int16_1 : forall d, 0 <= d < 16 -> int_ int16 [hexc d] = Ok d.
Proof.
  intros d H. destruct (hexc_digit d H) as [H1 H2]. unfold int_. rewrite H16; [|discriminate|constructor; [exact H1|constructor]].
  cbn [digits_value]. rewrite H2. reflexivity.
Qed.
Lemma int16_2 : forall b, 0 <= b < 256 -> int_ int16 (hex2 b) = Ok b.
Proof.
  intros b H. destruct (hexc_digit (b / 16) ltac:(lia)) as [H1 H2]. destruct (hexc_digit (b mod 16) ltac:(lia)) as [H3 H4].
  unfold int_, hex2. rewrite H16; [|discriminate|constructor; [exact H1|constructor; [exact H3|constructor]]].
  cbn [digits_value]. rewrite H2, H4. f_equal. lia.
Qed.

Context (m : list Z) (Hm : bytes_ok m).
Lemma byte_row_ok : forall k addr a rom x, bytes_ok rom -> 0 <= x -> x + Z.of_nat k <= 0x80 -> 0 <= a -> a + 0x80 <= zlen rom ->
  (forall x, 0 <= x < 0x80 -> addr x = a + x) ->
  exists rom', byte_row int16 addr rom x (map (fun x => hex2 (mget m (addr x))) (zrange_from x k)) = Ok rom' /\
    patched rom m (a + x) (Z.of_nat k) rom'.
Proof.
  induction k as [|k IH]; intros addr a rom x Hr Hx Hk Ha Hl Haddr.
  - exists rom. split; [reflexivity|]. apply patched_nil. assumption.
  - rewrite zrange_S. cbn [map byte_row]. rewrite int16_2 by (apply mget_byte; assumption). cbn [bind].
    destruct (Z.ltb_spec x 0x80); [|lia]. rewrite Haddr by lia.
    rewrite set8_ok; [|lia|apply mget_byte; assumption]. cbn [bind].
    pose proof (patched_mset rom m (a + x) _ Hr ltac:(lia) eq_refl Hm) as P1.
    destruct (IH addr a (mset rom (a + x) (mget m (a + x))) (x + 1)) as (rom' & E & P2); try lia; try assumption;
      [apply P1|rewrite mset_len; lia|].
    exists rom'. split; [exact E|]. replace (Z.of_nat (S k)) with (1 + Z.of_nat k) by lia.
    eapply patched_trans; [lia|lia|exact P1|]. replace (a + x + 1) with (a + (x + 1)) by lia. exact P2.
Qed.
Lemma info_row_ok : forall k rom y x, bytes_ok rom -> 0 <= y -> 0 <= x -> mem_sfx_info_addr y x + Z.of_nat k <= zlen rom ->
  exists rom', info_row int16 rom y x (map (fun x => hex2 (mget m (mem_sfx_info_addr y x))) (zrange_from x k)) = Ok rom' /\
    patched rom m (mem_sfx_info_addr y x) (Z.of_nat k) rom'.
Proof.
  induction k as [|k IH]; intros rom y x Hr Hy Hx Hl.
  - exists rom. split; [reflexivity|]. apply patched_nil. assumption.
  - assert (A : 0 <= mem_sfx_info_addr y x) by (unfold mem_sfx_info_addr, mem_sfx_addr, k_mem_sfx_addr; lia).
    assert (A1 : mem_sfx_info_addr y (x + 1) = mem_sfx_info_addr y x + 1) by (unfold mem_sfx_info_addr; lia).
    rewrite zrange_S. cbn [map info_row]. rewrite int16_2 by (apply mget_byte; assumption). cbn [bind].
    rewrite set8_ok; [|lia|apply mget_byte; assumption]. cbn [bind].
    pose proof (patched_mset rom m (mem_sfx_info_addr y x) _ Hr ltac:(lia) eq_refl Hm) as P1.
    destruct (IH (mset rom (mem_sfx_info_addr y x) (mget m (mem_sfx_info_addr y x))) y (x + 1)) as (rom' & E & P2);
      [apply P1|lia|lia|rewrite mset_len; lia|].
    exists rom'. split; [exact E|]. replace (Z.of_nat (S k)) with (1 + Z.of_nat k) by lia.
    eapply patched_trans; [lia|lia|exact P1|]. rewrite <- A1. exact P2.
Qed.

(** Notes *)
Definition note_ok (n : Z) : bool :=
  let g := [Z.land (Z.shiftr n 4) 0x3; Z.land n 0xf; Z.lor (Z.land (Z.shiftr n 6) 0x7) (Z.land (Z.shiftr n 12) 0x8);
            Z.land (Z.shiftr n 9) 0x7; Z.land (Z.shiftr n 12) 0x7] in
  forallb (fun d => (0 <=? d) && (d <? 16)) g &&
  match g with [a; b; c; d; e] => note_value a b c d e =? n | _ => false end.
Lemma note_all : forallb (fun h => forallb (fun l => note_ok (h * 256 + l)) all_bytes) all_bytes = true.
Proof. vm_compute. reflexivity. Qed.
Lemma note_sweep : forall n, 0 <= n < 65536 -> note_ok n = true.
Proof.
  intros n H. assert (A : 0 <= n / 256 < 256) by lia. assert (B : 0 <= n mod 256 < 256) by lia.
  assert (C : n / 256 * 256 + n mod 256 = n) by lia.
  pose proof (byte_sweep _ (byte_sweep _ note_all _ A) _ B) as K. cbv beta in K. rewrite C in K. exact K.
Qed.
Lemma note_text_ok : forall n, 0 <= n < 65536 -> exists a b c d e, note_text n = map hexc [a; b; c; d; e] /\
  Forall (fun d => 0 <= d < 16) [a; b; c; d; e] /\ note_value a b c d e = n.
Proof.
  intros n H. pose proof (note_sweep n H) as K. unfold note_ok in K. apply andb_prop in K as [K1 K2].
  eexists _, _, _, _, _. split; [reflexivity|]. split; [|lia].
  apply Forall_forall. intros d Hd. rewrite forallb_forall in K1. specialize (K1 d Hd). lia.
Qed.
Lemma patched_word : forall rom a n, bytes_ok rom -> 0 <= a -> a + 1 < zlen rom -> n = mget m a + mget m (a + 1) * 256 ->
  exists rom', set16 rom a n = Ok rom' /\ patched rom m a 2 rom'.
Proof.
  intros rom a n Hr Ha Hl ->. pose proof (mget_byte m a Hm). pose proof (mget_byte m (a + 1) Hm).
  rewrite set16_ok by assumption. eexists. split; [reflexivity|].
  pose proof (patched_mset rom m a ((mget m a + mget m (a + 1) * 256) mod 256) Hr ltac:(lia) ltac:(lia) Hm) as P1.
  apply (patched_trans rom m a 1 1 _ _ ltac:(lia) ltac:(lia) P1).
  apply patched_mset; [apply P1|rewrite mset_len; lia|lia|assumption].
Qed.
Lemma note_row_ok : forall k rom y x, bytes_ok rom -> 0 <= y -> 0 <= x -> x + Z.of_nat k <= 0x20 -> mem_sfx_addr y 0x20 <= zlen rom ->
  exists rom', note_row int16 rom y x (map (fun x => note_text (mget m (mem_sfx_addr y x) + mget m (mem_sfx_addr y x + 1) * 256)) (zrange_from x k)) = Ok rom' /\
    patched rom m (mem_sfx_addr y x) (2 * Z.of_nat k) rom'.
Proof.
  induction k as [|k IH]; intros rom y x Hr Hy Hx Hk Hl.
  - exists rom. split; [reflexivity|]. apply patched_nil. assumption.
  - assert (A : 0 <= mem_sfx_addr y x /\ mem_sfx_addr y (x + 1) = mem_sfx_addr y x + 2 /\ mem_sfx_addr y x + 2 <= zlen rom)
      by (unfold mem_sfx_addr, k_mem_sfx_addr in *; lia).
    destruct A as (A1 & A2 & A3). pose proof (mget_byte m (mem_sfx_addr y x) Hm). pose proof (mget_byte m (mem_sfx_addr y x + 1) Hm).
    rewrite zrange_S. cbn [map note_row].
    destruct (note_text_ok (mget m (mem_sfx_addr y x) + mget m (mem_sfx_addr y x + 1) * 256) ltac:(lia)) as (a & b & c & d & e & -> & F & V).
    rewrite (map_res_ok _ (fun c => digit_value c)).
    2:{ intros z Hz. apply in_map_iff in Hz as (w & <- & Hw). pose proof (proj1 (Forall_forall _ _) F w Hw).
        rewrite int16_1 by assumption. f_equal. symmetry. apply hexc_digit. assumption. }
    rewrite map_map. cbn [bind].
    rewrite (map_ext_in (fun x => digit_value (hexc x)) (fun x => x)) by
      (intros z Hz; apply hexc_digit; exact (proj1 (Forall_forall _ _) F z Hz)).
    rewrite map_id. destruct (Z.ltb_spec x 0x20); [|lia]. rewrite V.
    destruct (patched_word rom (mem_sfx_addr y x) _ Hr A1 ltac:(lia) eq_refl) as (r1 & E1 & P1). rewrite E1. cbn [bind].
    destruct (IH r1 y (x + 1)) as (r2 & E2 & P2); [apply P1|lia|lia|lia|destruct P1 as (P1 & _); lia|].
    exists r2. split; [exact E2|]. replace (2 * Z.of_nat (S k)) with (2 + 2 * Z.of_nat k) by lia.
    eapply patched_trans; [lia|lia|exact P1|]. rewrite <- A2. exact P2.
Qed.

(** Pixels *)
Lemma gfx_row_ok : forall k rom y j, bytes_ok rom -> 0 <= y -> 0 <= j -> j + Z.of_nat k <= 0x40 -> y * 0x40 + 0x40 <= zlen rom ->
  exists rom', gfx_row int16 rom y (2 * j) (concat (map (fun j => [hexc (mget m (y * 0x40 + j) mod 16); hexc (mget m (y * 0x40 + j) / 16)]) (zrange_from j k))) = Ok rom' /\
    patched rom m (y * 0x40 + j) (Z.of_nat k) rom'.
Proof.
  induction k as [|k IH]; intros rom y j Hr Hy Hj Hk Hl.
  - exists rom. split; [reflexivity|]. apply patched_nil. assumption.
  - set (a := y * 0x40 + j) in *. pose proof (mget_byte m a Hm) as Hb.
    rewrite zrange_S. cbn [map concat app gfx_row]. fold a.
    rewrite !int16_1 by lia. cbn [bind].
    destruct (Z.ltb_spec (2 * j) 0x80); [|lia]. destruct (Z.ltb_spec (2 * j + 1) 0x80); [|lia].
    rewrite !sprite_addr_eq by lia.
    replace (y * 64 + 2 * j / 2) with a by (unfold a; lia). replace (2 * j mod 2) with 0 by lia.
    replace (y * 64 + (2 * j + 1) / 2) with a by (unfold a; lia). replace ((2 * j + 1) mod 2) with 1 by lia.
    assert (Ha : 0 <= a < zlen rom) by (unfold a; lia).
    rewrite set4_ok by assumption. cbn [bind].
    rewrite set4_ok; [|apply mset_bytes; [assumption|apply nib_set_byte; apply mget_byte; assumption]|rewrite mset_len; assumption].
    cbn [bind]. rewrite mget_mset by lia. rewrite Z.eqb_refl.
    pose proof (mget_byte rom a Hr) as Hv.
    replace (nib_set (nib_set (mget rom a) 0 (mget m a mod 16)) 1 (mget m a / 16)) with (mget m a) by (unfold nib_set; cbn; lia).
    set (rom1 := mset rom a (nib_set (mget rom a) 0 (mget m a mod 16))).
    assert (P1 : patched rom m a 1 (mset rom1 a (mget m a))).
    { split; [unfold rom1; rewrite !mset_len; reflexivity|]. split.
      - apply mset_bytes; [|lia]. apply mset_bytes; [assumption|]. apply nib_set_byte. assumption.
      - intros i Hi. unfold rom1. rewrite !mget_mset by (rewrite ?mset_len; lia).
        destruct (Z.eqb_spec i a) as [->|]; destruct ((a <=? _) && _) eqn:E; try reflexivity; lia. }
    destruct (IH (mset rom1 a (mget m a)) y (j + 1)) as (r2 & E2 & P2);
      [apply P1|lia|lia|lia|unfold rom1; rewrite !mset_len; lia|].
    exists r2. replace (2 * j + 1 + 1) with (2 * (j + 1)) by lia. split; [exact E2|].
    replace (Z.of_nat (S k)) with (1 + Z.of_nat k) by lia.
    eapply patched_trans; [lia|lia|exact P1|]. replace (a + 1) with (y * 0x40 + (j + 1)) by (unfold a; lia). exact P2.
Qed.

(** Music *)
Lemma music_bits : forall a b c d, 0 <= a < 256 -> 0 <= b < 256 -> 0 <= c < 256 -> 0 <= d < 256 ->
  music_flags [a; b; c; d] = a / 128 + 2 * (b / 128) + 4 * (c / 128) + 8 * (d / 128).
Proof.
  intros a b c d Ha Hb Hc Hd. unfold music_flags. cbn [length zrange_from seq map combine fold_right].
  change (0 + Z.of_nat 0) with 0. change (0 + Z.of_nat 1) with 1. change (0 + Z.of_nat 2) with 2. change (0 + Z.of_nat 3) with 3.
  rewrite !Z.shiftr_div_pow2, !Z.shiftl_mul_pow2 by lia.
  assert (L : forall x, 0 <= x < 256 -> Z.land (x / 2 ^ 7) 1 = x / 128).
  { intros x Hx. change 1 with (Z.ones 1). rewrite Z.land_ones by lia. change (2 ^ 7) with 128. change (2 ^ 1) with 2. lia. }
  rewrite !L by assumption. change (2 ^ 0) with 1. change (2 ^ 1) with 2. change (2 ^ 2) with 4. change (2 ^ 3) with 8. lia.
Qed.
Lemma music_value : forall a f x, 0 <= a < 256 -> 0 <= x -> Z.land (Z.shiftr f x) 1 = a / 128 ->
  Z.lor (Z.land a 0x7f) (Z.shiftl (Z.land (Z.shiftr f x) 1) 7) = a.
Proof.
  intros a f x Ha Hx ->. change 0x7f with (Z.ones 7). rewrite Z.land_ones by lia. rewrite lor_add; [|lia..].
  change (2 ^ 7) with 128. lia.
Qed.
Lemma music_row_ok : forall rom y, bytes_ok rom -> 0 <= y -> mem_music_addr y 0 + 4 <= zlen rom ->
  let ch x := mget m (mem_music_addr y x) in
  let f := music_flags [ch 0; ch 1; ch 2; ch 3] in
  0 <= f < 16 /\
  exists rom', music_row int16 rom f y 0 (map (fun c => hex2 (Z.land c 0x7f)) [ch 0; ch 1; ch 2; ch 3]) = Ok rom' /\
    patched rom m (mem_music_addr y 0) 4 rom'.
Proof.
  intros rom y Hr Hy Hl ch f.
  assert (B : forall x, 0 <= ch x < 256) by (intros; apply mget_byte; assumption).
  assert (F : f = ch 0 / 128 + 2 * (ch 1 / 128) + 4 * (ch 2 / 128) + 8 * (ch 3 / 128)) by (apply music_bits; apply B).
  split; [pose proof (B 0); pose proof (B 1); pose proof (B 2); pose proof (B 3); lia|].
  assert (S : forall x, (x = 0 \/ x = 1 \/ x = 2 \/ x = 3) -> Z.land (Z.shiftr f x) 1 = ch x / 128).
  { intros x Hx. pose proof (B 0); pose proof (B 1); pose proof (B 2); pose proof (B 3).
    change 1 with (Z.ones 1). rewrite Z.land_ones by lia. rewrite Z.shiftr_div_pow2 by lia. rewrite F.
    change (2 ^ 1) with 2. destruct Hx as [->|[->|[->| ->]]]; [change (2 ^ 0) with 1|change (2 ^ 1) with 2|change (2 ^ 2) with 4|change (2 ^ 3) with 8]; lia. }
  assert (Q : forall x, 0 <= Z.land (ch x) 0x7f < 256).
  { intros x. change 0x7f with (Z.ones 7). rewrite Z.land_ones by lia. change (2 ^ 7) with 128. lia. }
  assert (V : forall x, (x = 0 \/ x = 1 \/ x = 2 \/ x = 3) ->
    Z.lor (Z.land (ch x) 0x7f) (Z.shiftl (Z.land (Z.shiftr f x) 1) 7) = ch x) by (intros; apply music_value; [apply B|lia|auto]).
  assert (A : forall x, mem_music_addr y x = mem_music_addr y 0 + x) by (intros; unfold mem_music_addr; lia).
  assert (A0 : 0 <= mem_music_addr y 0) by (unfold mem_music_addr, k_mem_music_addr; lia).
  cbn [map music_row]. rewrite !int16_2 by apply Q. cbn [bind].
  change (0 <? 4) with true. change (0 + 1 <? 4) with true. change (0 + 1 + 1 <? 4) with true. change (0 + 1 + 1 + 1 <? 4) with true.
  change (0 + 1) with 1. change (1 + 1) with 2. change (2 + 1) with 3. cbv iota. rewrite !V by auto.
  assert (St : forall r x, patched rom m (mem_music_addr y 0) x r -> 0 <= x < 4 -> exists r', set8 r (mem_music_addr y x) (ch x) = Ok r' /\ patched rom m (mem_music_addr y 0) (x + 1) r').
  { intros r x P Hx. rewrite A. assert (Lr : zlen r = zlen rom) by apply P. rewrite set8_ok; [|lia|apply B]. eexists. split; [reflexivity|].
    eapply patched_trans; [lia|lia|exact P|]. apply patched_mset; [apply P|lia|unfold ch; rewrite A; reflexivity|assumption]. }
  destruct (St rom 0 (patched_nil _ _ _ Hr) ltac:(lia)) as (r1 & E1 & P1). rewrite E1. cbn [bind].
  destruct (St r1 1 P1 ltac:(lia)) as (r2 & E2 & P2). rewrite E2. cbn [bind].
  destruct (St r2 2 P2 ltac:(lia)) as (r3 & E3 & P3). rewrite E3. cbn [bind].
  destruct (St r3 3 P3 ltac:(lia)) as (r4 & E4 & P4). rewrite E4. cbn [bind]. exists r4. split; [reflexivity|exact P4].
Qed.
End Rows.
