(** C53: zero-terminated and zero-padded fields. *)
From Verif Require Import M_Base L_Util M_Zbytes.
Open Scope Z_scope.

(** a text of characters of [count] bytes none of which is zero *)
Definition text_of (count : nat) (chars : list (list Z)) (v : list Z) : Prop :=
  v = concat chars /\ Forall (fun c => length c = count /\ c <> repeat 0 count) chars.

Lemma text_length count chars v : text_of count chars v -> length v = (length chars * count)%nat.
Proof.
  intros (-> & F). induction F as [|c l (L & _) _ IH]; [reflexivity|]. cbn [concat length].
  rewrite app_length, IH, L. lia.
Qed.

Lemma firstn_exact {A} n (a b : list A) : length a = n -> firstn n (a ++ b) = a.
Proof. intros <-. rewrite firstn_app, Nat.sub_diag, firstn_all, firstn_O. apply app_nil_r. Qed.
Lemma skipn_exact {A} n (a b : list A) : length a = n -> skipn n (a ++ b) = b.
Proof. intros <-. now rewrite skipn_app, Nat.sub_diag, skipn_all. Qed.

Lemma skipn_skipn {A} x : forall y (l : list A), skipn x (skipn y l) = skipn (x + y) l.
Proof.
  induction y as [|y IH]; intros l; [now rewrite Nat.add_0_r|]. destruct l as [|a l]; [now rewrite !skipn_nil|].
  rewrite Nat.add_succ_r. cbn [skipn]. apply IH.
Qed.

Lemma read_z_spec count allow_eof : (0 < count)%nat -> forall chars v, text_of count chars v ->
  forall fuel out post, (length chars < fuel)%nat ->
  read_z_loop fuel count allow_eof out (v ++ zeros count ++ post) = Ok (out ++ v, post).
Proof.
  intros Hc chars. induction chars as [|c chars IH]; intros v (-> & F) fuel out post L;
    (destruct fuel as [|fuel]; [lia|]); cbn [read_z_loop concat app]; unfold r_bytes.
  - assert (Lz : length (zeros count) = count) by apply repeat_length.
    rewrite firstn_exact, skipn_exact by easy. rewrite Lz, Nat.ltb_irrefl. cbn [andb bind].
    rewrite Lz, Nat.ltb_irrefl, zeqb_list_refl. now rewrite app_nil_r.
  - inversion F as [|? ? (Lc & Nz) F']; subst. rewrite <- app_assoc.
    rewrite firstn_exact, skipn_exact by easy. rewrite Nat.ltb_irrefl. cbn [andb bind].
    rewrite Nat.ltb_irrefl. destruct (zeqb_list c (zeros (length c))) eqn:Q.
    { apply zeqb_list_true in Q. contradiction. }
    rewrite (IH (concat chars)); [now rewrite app_assoc|now split|cbn in L; lia].
Qed.

(** what [find_from] returns: the first place *)
Lemma find_from_spec zero s : forall i, match find_from zero s i with
  | Some j => (i <= j)%nat /\ (j - i <= length s)%nat /\ firstn (length zero) (skipn (j - i) s) = zero /\
      forall k, (k < j - i)%nat -> firstn (length zero) (skipn k s) <> zero
  | None => forall k, (k <= length s)%nat -> firstn (length zero) (skipn k s) <> zero
  end.
Proof.
  induction s as [|c s IH]; intros i; cbn [find_from].
  - destruct (zeqb_list _ zero) eqn:E.
    + apply zeqb_list_true in E. rewrite Nat.sub_diag. cbn [skipn]. repeat split; [lia|lia|exact E|lia].
    + apply zeqb_list_false in E. intros k L. destruct k; [exact E|cbn in L; lia].
  - destruct (zeqb_list _ zero) eqn:E.
    + apply zeqb_list_true in E. rewrite Nat.sub_diag. cbn [skipn]. repeat split; [lia|lia|exact E|lia].
    + apply zeqb_list_false in E. specialize (IH (S i)). destruct (find_from zero s (S i)) as [j|].
      * destruct IH as (A & B & C & D). assert (Q : (j - i = S (j - S i))%nat) by lia. rewrite Q. cbn [skipn length].
        split; [lia|]. split; [lia|]. split; [exact C|]. intros [|k] Hk; [exact E|]. cbn [skipn]. apply D. lia.
      * intros [|k] L; [exact E|]. cbn [skipn]. apply IH. cbn in L. lia.
Qed.

(** aligned places in the text are never zero *)
Lemma aligned count : (0 < count)%nat -> forall chars v rest, text_of count chars v ->
  forall k, (k < length v)%nat -> (k mod count = 0)%nat -> firstn count (skipn k (v ++ rest)) <> zeros count.
Proof.
  intros Hc chars. induction chars as [|c chars IH]; intros v rest (-> & F) k L M; [cbn in L; lia|].
  inversion F as [|? ? (Lc & Nz) F']; subst. cbn [concat] in *. rewrite <- app_assoc.
  destruct (Nat.eq_dec k 0) as [->|Nk].
  - cbn [skipn]. rewrite firstn_app, Nat.sub_diag, firstn_all. cbn [firstn]. now rewrite app_nil_r.
  - assert (Lk : (length c <= k)%nat).
    { destruct (Nat.le_gt_cases (length c) k) as [|G]; [easy|]. rewrite Nat.mod_small in M by easy. lia. }
    rewrite skipn_app. rewrite skipn_all2 by easy. cbn [app].
    apply IH; [now split|rewrite app_length in L; lia|].
    replace k with ((k - length c) + 1 * length c)%nat in M by lia. now rewrite Nat.mod_add in M by lia.
Qed.

Lemma pad_zero count n : (0 < n)%nat -> firstn count (concat (repeat (zeros count) n)) = zeros count.
Proof.
  destruct n as [|n]; [lia|]. intros _. cbn [repeat concat]. unfold zeros. rewrite firstn_app, repeat_length, Nat.sub_diag.
  rewrite firstn_O, app_nil_r. rewrite <- (repeat_length 0 count) at 1. apply firstn_all.
Qed.

Lemma cut_spec count chars v n : (0 < count)%nat -> text_of count chars v ->
  forall fuel offset, (offset <= length v)%nat -> (length v - offset < fuel)%nat ->
  cut_loop fuel count (v ++ concat (repeat (zeros count) n)) offset = Ok v.
Proof.
  intros Hc T. pose proof (text_length _ _ _ T) as Lv.
  assert (Lr : length (concat (repeat (zeros count) n)) = (n * count)%nat).
  { clear. induction n as [|n IH]; [reflexivity|]. cbn [repeat concat]. rewrite app_length, IH. unfold zeros. rewrite repeat_length. lia. }
  assert (Lz : length (zeros count) = count) by apply repeat_length.
  induction fuel as [|fuel IH]; intros offset Lo Lf; [lia|]. cbn [cut_loop].
  pose proof (find_from_spec (zeros count) (skipn offset (v ++ concat (repeat (zeros count) n))) offset) as Q.
  destruct (find_from _ _ _) as [j|].
  - destruct Q as (A & B & C & D). rewrite Lz in *. rewrite skipn_skipn in C.
    replace (j - offset + offset)%nat with j in C by lia.
    assert (Lj : (j <= length v)%nat).
    { destruct (Nat.le_gt_cases j (length v)) as [|G]; [easy|]. exfalso.
      destruct n as [|n].
      - (* nothing is left beyond the end *)
        cbn [repeat concat] in C. rewrite app_nil_r, skipn_all2 in C by lia. rewrite firstn_nil in C.
        apply (f_equal (@length Z)) in C. rewrite Lz in C. cbn in C. lia.
      - apply (D (length v - offset)%nat); [lia|]. rewrite skipn_skipn.
        replace (length v - offset + offset)%nat with (length v) by lia.
        rewrite skipn_app, skipn_all, Nat.sub_diag. cbn [skipn app]. apply pad_zero. lia. }
    destruct (Nat.eqb_spec (j mod count) 0) as [M|M].
    + destruct (Nat.eq_dec j (length v)) as [->|Nj].
      * rewrite firstn_app, firstn_all, Nat.sub_diag, firstn_O. now rewrite app_nil_r.
      * exfalso. exact (aligned count Hc chars v _ T j ltac:(lia) M C).
    + assert (j <> length v) by (intros ->; apply M; rewrite Lv; apply Nat.mod_mul; lia).
      apply IH; lia.
  - destruct n as [|n].
    + cbn [repeat concat]. now rewrite app_nil_r.
    + exfalso. apply (Q (length v - offset)%nat).
      * rewrite skipn_length, app_length. lia.
      * rewrite skipn_skipn. replace (length v - offset + offset)%nat with (length v) by lia.
        rewrite skipn_app, skipn_all, Nat.sub_diag. cbn [skipn app]. rewrite Lz. apply pad_zero. lia.
Qed.

(** A text written into a zero-terminated field, or into a fixed number of characters
    that it fits into, is read back, and reading stops right after the field. *)
Theorem C53_roundtrip : forall count size allow_eof chars v post, (0 < count)%nat ->
  text_of count chars v -> (forall n, size = Some n -> (length chars <= n)%nat) ->
  exists bytes, write_zbytes v size count = Ok bytes /\
    read_zbytes size count allow_eof (bytes ++ post) = Ok (v, post) /\
    forall n, size = Some n -> length bytes = (n * count)%nat.
Proof.
  intros count size allow_eof chars v post Hc T Hs. pose proof (text_length _ _ _ T) as Lv.
  unfold write_zbytes. rewrite Lv, Nat.mod_mul by lia. cbn [Nat.eqb negb andb]. rewrite andb_false_r. cbn [negb assert_ bind].
  destruct size as [n|].
  - specialize (Hs n eq_refl). destruct (Nat.ltb_spec (n * count) (length chars * count)) as [L|L]; [nia|].
    rewrite Nat.div_mul by lia. eexists. split; [reflexivity|].
    set (pad := concat (repeat (zeros count) (n - length chars))).
    assert (Lp : length pad = ((n - length chars) * count)%nat).
    { unfold pad. generalize (n - length chars)%nat. induction n0 as [|m IH]; [reflexivity|]. cbn [repeat concat].
      rewrite app_length, IH. unfold zeros. rewrite repeat_length. lia. }
    assert (Lb : length (v ++ pad) = (n * count)%nat) by (rewrite app_length, Lp, Lv, <- Nat.mul_add_distr_r; f_equal; lia).
    split; [|intros ? [= <-]; exact Lb].
    unfold read_zbytes, r_bytes. rewrite firstn_exact, skipn_exact by easy. rewrite Lb, Nat.ltb_irrefl. cbn [andb bind].
    rewrite Lb, Nat.mod_mul by lia. cbn [Nat.eqb negb]. rewrite andb_false_r. rewrite <- Lb.
    unfold pad. rewrite (cut_spec count chars v _ Hc T); [reflexivity|lia|rewrite app_length; lia].
  - eexists. split; [reflexivity|]. split; [|discriminate]. unfold read_zbytes. rewrite <- app_assoc.
    rewrite (read_z_spec count allow_eof Hc chars v T); [reflexivity|]. rewrite !app_length, Lv. nia.
Qed.

(** a case with two-byte characters and a zero byte that is not a zero character *)
Example C53_case :
  text_of 2 [[1; 0]; [0; 2]] [1; 0; 0; 2] /\
  write_zbytes [1; 0; 0; 2] (Some 3%nat) 2 = Ok [1; 0; 0; 2; 0; 0] /\
  read_zbytes (Some 3%nat) 2 false [1; 0; 0; 2; 0; 0; 7] = Ok ([1; 0; 0; 2], [7]).
Proof.
  split; [|split; reflexivity]. split; [reflexivity|]. repeat constructor; discriminate.
Qed.
Print Assumptions C53_roundtrip.
