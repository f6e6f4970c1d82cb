(** Go slice operations on lists ([None] = run-time panic) and their element-wise description.
    A slice is modelled by the list of its elements up to its length. *)
From Verif Require Import Base.

Section Slice.
  Context {A : Type}.

  (** s[i] = v *)
  Definition put_at (l : list A) (i : nat) (v : A) : option (list A) :=
    if i <? length l then Some (list_set l i v) else None.

  (** s[i:j] *)
  Definition slice (l : list A) (i j : nat) : option (list A) :=
    if (i <=? j) && (j <=? length l) then Some (firstn (j - i) (skipn i l)) else None.

  (** copy(dst[off:], src) : overwrites as many elements as both sides have *)
  Definition copy_at (dst : list A) (off : nat) (src : list A) : option (list A) :=
    if off <=? length dst
    then Some (firstn off dst ++ firstn (length dst - off) src ++ skipn (off + length src) dst)
    else None.

  Lemma put_at_ok l i v : i < length l -> put_at l i v = Some (list_set l i v).
  Proof. intros H; unfold put_at. destruct (Nat.ltb_spec i (length l)); [reflexivity|lia]. Qed.

  Lemma nth_error_firstn_lt (l : list A) n i : i < n -> nth_error (firstn n l) i = nth_error l i.
  Proof. revert n i; induction l as [|h t IH]; intros [|n] [|i] H; simpl; auto; try lia. apply IH; lia. Qed.
  Lemma nth_error_firstn_ge (l : list A) n i : n <= i -> nth_error (firstn n l) i = None.
  Proof. intros H. apply nth_error_None. rewrite firstn_length. lia. Qed.
  Lemma nth_error_skipn_add (l : list A) n i : nth_error (skipn n l) i = nth_error l (n + i).
  Proof. revert l; induction n as [|n IH]; intros [|h t]; simpl; auto. now destruct i. Qed.
  Lemma nth_error_repeat_lt (x : A) n i : i < n -> nth_error (repeat x n) i = Some x.
  Proof. revert i; induction n as [|n IH]; intros [|i] H; simpl; auto; try lia. apply IH; lia. Qed.

  Lemma slice_ok l i j : i <= j -> j <= length l ->
    slice l i j = Some (firstn (j - i) (skipn i l)) /\ length (firstn (j - i) (skipn i l)) = j - i.
  Proof.
    intros H1 H2. unfold slice. rewrite (proj2 (Nat.leb_le i j) H1), (proj2 (Nat.leb_le j (length l)) H2).
    split; [reflexivity|]. rewrite firstn_length, skipn_length. lia.
  Qed.
  Lemma slice_nth l i j s : slice l i j = Some s ->
    i <= j <= length l /\ length s = j - i /\ forall k, k < j - i -> nth_error s k = nth_error l (i + k).
  Proof.
    unfold slice. destruct (Nat.leb_spec i j) as [H1|H1]; [|discriminate].
    destruct (Nat.leb_spec j (length l)) as [H2|H2]; [|discriminate]. simpl. intros [= <-].
    rewrite firstn_length, skipn_length. split; [lia|]. split; [lia|].
    intros k Hk. now rewrite nth_error_firstn_lt, nth_error_skipn_add.
  Qed.

  Lemma copy_at_nth dst off src : off + length src <= length dst -> exists d,
    copy_at dst off src = Some d /\ length d = length dst /\
    forall i, nth_error d i = if (off <=? i) && (i <? off + length src) then nth_error src (i - off) else nth_error dst i.
  Proof.
    intros H. unfold copy_at. destruct (Nat.leb_spec off (length dst)) as [H1|H1]; [|lia].
    eexists; split; [reflexivity|]. rewrite (firstn_all2 src) by lia.
    split. { rewrite !app_length, firstn_length, skipn_length. lia. }
    intros i. destruct (Nat.leb_spec off i) as [Hi|Hi]; simpl.
    - rewrite nth_error_app2 by (rewrite firstn_length; lia). rewrite firstn_length.
      replace (Nat.min off (length dst)) with off by lia.
      destruct (Nat.ltb_spec i (off + length src)) as [Hj|Hj].
      + apply nth_error_app1; lia.
      + rewrite nth_error_app2 by lia. rewrite nth_error_skipn_add. f_equal. lia.
    - rewrite nth_error_app1 by (rewrite firstn_length; lia). apply nth_error_firstn_lt; assumption.
  Qed.
End Slice.
