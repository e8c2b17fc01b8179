(** Small lemmas shared by the proofs. *)
From Verif Require Import M_Base.
Open Scope Z_scope.
Ltac Zify.zify_post_hook ::= Z.div_mod_to_equations.

Lemma Ok_inj {A} (a b : A) : Ok a = Ok b -> a = b.
Proof. intros H. now injection H. Qed.

Ltac bytes_lia := unfold bytes_ok; repeat (apply Forall_cons; [lia|]); apply Forall_nil.

Lemma zlen_nonneg {A} (l : list A) : 0 <= zlen l.
Proof. unfold zlen. lia. Qed.
Lemma zlen_app {A} (a b : list A) : zlen (a ++ b) = zlen a + zlen b.
Proof. unfold zlen. rewrite app_length. lia. Qed.
Lemma zlen_cons {A} (x : A) l : zlen (x :: l) = 1 + zlen l.
Proof. unfold zlen. cbn [length]. lia. Qed.
Lemma zlen_nil {A} : zlen (@nil A) = 0.
Proof. reflexivity. Qed.

Lemma zeqb_list_refl a : zeqb_list a a = true.
Proof. induction a as [|x a IH]; [reflexivity|]. cbn. now rewrite Z.eqb_refl. Qed.
Lemma zeqb_list_true a b : zeqb_list a b = true <-> a = b.
Proof.
  split; [|intros ->; apply zeqb_list_refl]. revert b; induction a as [|x a IH]; intros [|y b] H; try discriminate; [reflexivity|].
  cbn in H. apply andb_prop in H as [H1 H2]. f_equal; [lia|now apply IH].
Qed.
Lemma zeqb_list_false a b : zeqb_list a b = false <-> a <> b.
Proof.
  rewrite <- (zeqb_list_true a b). destruct (zeqb_list a b); split; congruence.
Qed.

Lemma list_upd_length {A} (l : list A) k v : length (list_upd l k v) = length l.
Proof. revert k; induction l as [|x l IH]; intros [|k]; cbn; auto. Qed.
Lemma list_upd_nth {A} (l : list A) k j v d : (k < length l)%nat ->
  nth j (list_upd l k v) d = if Nat.eqb j k then v else nth j l d.
Proof.
  revert k j; induction l as [|x l IH]; intros k j Hk; [cbn in Hk; lia|].
  destruct k as [|k], j as [|j]; cbn; auto. apply IH. cbn in Hk. lia.
Qed.
Lemma list_upd_split {A} (l : list A) k v : (k < length l)%nat ->
  list_upd l k v = firstn k l ++ v :: skipn (S k) l.
Proof.
  revert k; induction l as [|x l IH]; intros k Hk; [cbn in Hk; lia|].
  destruct k as [|k]; [reflexivity|]. cbn [list_upd firstn skipn app]. f_equal. apply IH. cbn in Hk. lia.
Qed.
Lemma list_upd_bytes m k v : bytes_ok m -> 0 <= v < 256 -> bytes_ok (list_upd m k v).
Proof. intros H Hv. revert k; induction H; intros [|k]; cbn; constructor; auto. apply IHForall. Qed.

Lemma nth_skipn {A} (l : list A) a k d : nth k (skipn a l) d = nth (a + k) l d.
Proof. revert a; induction l as [|x l IH]; intros [|a]; cbn; auto; destruct k; auto. Qed.
Lemma nth_firstn {A} (l : list A) a k d : (k < a)%nat -> nth k (firstn a l) d = nth k l d.
Proof. revert a k; induction l as [|x l IH]; intros [|a] [|k] H; cbn; auto; try lia. apply IH. lia. Qed.

Lemma list_ext {A} (d : A) (a b : list A) : length a = length b ->
  (forall k, (k < length a)%nat -> nth k a d = nth k b d) -> a = b.
Proof. intros HL H. apply (nth_ext a b d d HL). exact H. Qed.

Lemma bytes_nth m k : bytes_ok m -> 0 <= nth k m 0 < 256.
Proof. intros H. revert k; induction H as [|x l Hx _ IH]; intros [|k]; cbn; auto; lia. Qed.

Lemma Forall_firstn {A} (P : A -> Prop) n l : Forall P l -> Forall P (firstn n l).
Proof. intros H. revert n; induction H; intros [|n]; cbn; auto. Qed.
Lemma Forall_skipn {A} (P : A -> Prop) n l : Forall P l -> Forall P (skipn n l).
Proof. intros H. revert n; induction H; intros [|n]; cbn; auto. Qed.

(** Lifting a check over all bytes. *)
Definition all_bytes : list Z := map Z.of_nat (seq 0 256).
Lemma all_bytes_in b : 0 <= b < 256 -> In b all_bytes.
Proof. intros H. unfold all_bytes. rewrite in_map_iff. exists (Z.to_nat b). split; [lia|]. apply in_seq. lia. Qed.
Lemma byte_sweep (P : Z -> bool) : forallb P all_bytes = true -> forall b, 0 <= b < 256 -> P b = true.
Proof. intros H b Hb. rewrite forallb_forall in H. apply H. now apply all_bytes_in. Qed.
(** The same for any initial range. *)
Definition zrange (n : nat) : list Z := map Z.of_nat (seq 0 n).
Lemma zrange_in n b : 0 <= b < Z.of_nat n -> In b (zrange n).
Proof. intros H. unfold zrange. rewrite in_map_iff. exists (Z.to_nat b). split; [lia|]. apply in_seq. lia. Qed.
Lemma range_sweep n (P : Z -> bool) : forallb P (zrange n) = true -> forall b, 0 <= b < Z.of_nat n -> P b = true.
Proof. intros H b Hb. rewrite forallb_forall in H. apply H. now apply zrange_in. Qed.
