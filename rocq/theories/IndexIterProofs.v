(** The index tree iterators against the cursor. *)
From Verif Require Import Base Bind Machine OrderSpec SMapSpec SMapFacts AvlTree AvlSpec AvlModel AvlIterModel AvlIterProofs
  IndexSpec IndexModel IndexProofs IndexIterSpec IndexIterModel.
Local Open Scope Z_scope.

Section Proofs.
  Context {K V : Type} (ltb : K -> K -> bool) (W : weak_order ltb) (cmp : K -> K -> Z) (Hcmp : plain_cmp ltb cmp).
  Notation tree := (tree K V).

  (** ** height *)
  Lemma getHigh_ok (t : tree) : sized t -> forall h most, getHigh t h most = if is_nil t then most else Z.max most (h + ht t - 1).
  Proof.
    induction t as [|s k v l IHl r IHr]; intros Ht h most; [reflexivity|]. cbn [sized] in Ht. destruct Ht as (Hs & Hl & Hr).
    cbn [getHigh is_nil]. pose proof (ht_nonneg l). pose proof (ht_nonneg r).
    assert (X : forall u : tree, if is_nil u then ht u = 0 /\ len (elems u) = 0 else 0 < ht u /\ 0 < len (elems u)).
    { intros [|s' k' v' l' r']; [split; reflexivity|]. cbn [is_nil ht elems]. rewrite len_mid. unfold len. pose proof (ht_nonneg l'). lia. }
    pose proof (X l) as Xl. pose proof (X r) as Xr. unfold len in *. cbn [ht].
    destruct (Z.eqb_spec s 1).
    - destruct (is_nil l), (is_nil r); try lia. destruct (Z.ltb_spec most h); lia.
    - rewrite IHr, IHl by auto. destruct (is_nil l), (is_nil r); lia.
  Qed.
  Lemma hight_ok (t : tree) : sized t -> hight t = Z.max 0 (ht t - 1).
  Proof. intros Ht. unfold hight. rewrite getHigh_ok by exact Ht. destruct t; cbn [is_nil ht]; lia. Qed.

  Context (T : avl K V).
  Notation t := (root T).
  Notation cells := (Z.max 2 (ht t)).
  Notation m := (elems t).
  Context (Hsz : sized t) (Hht : ht t <= 128) (Hsort : strictly_sorted ltb m).
  Notation On := (On T cells).
  Notation Off := (Off T cells).
  Notation Unset := (Unset T cells).
  Notation Pos := (Pos T cells).
  Notation fits := (@fits K V cells).
  Lemma Hc : ht t <= cells. Proof. lia. Qed.

  Lemma inew_is : inew T = IT T E (-1) (repeat (E, false) (Z.to_nat cells)).
  Proof.
    unfold inew. rewrite hight_ok by exact Hsz. f_equal. f_equal. f_equal. destruct (Z.eqb_spec (Z.max 0 (ht t - 1)) 0); lia.
  Qed.
  Lemma inew_pos : Pos (inew T) None.
  Proof. rewrite inew_is. cbn [AvlIterProofs.Pos]. unfold AvlIterProofs.Unset, AvlIterProofs.fits; cbn [itree cur idx stack]. rewrite repeat_length. repeat split; lia. Qed.

  (** ** same as the other iterators, the counter never reaching its end *)
  Lemma i8_id z : -128 <= z <= 127 -> i8 z = z.
  Proof. intros H. unfold i8. rewrite Z.mod_small by lia. lia. Qed.
  Lemma On_idx it p : On it p -> i8 (idx it + 1) = idx it + 1.
  Proof.
    intros (_ & _ & (Hi & _) & A & Hn). pose proof (At_depth _ _ _ A) as D. destruct (cur it) as [|h k v l r]; [congruence|].
    cbn [ht] in D. pose proof (ht_nonneg l). apply i8_id. lia.
  Qed.
  Lemma idown_on c it p : On it p -> idown c it = down c it.
  Proof. intros H. unfold idown, down. rewrite (On_idx it p H). reflexivity. Qed.
  Lemma idown_nil c (it : iter K V) : cur it = E -> idown c it = down c it.
  Proof. intros H. unfold idown, down. rewrite H. reflexivity. Qed.
  Lemma iup_loop_eq c it : (cur it = E \/ exists p, On it p) -> forall fuel i, iup_loop fuel c it i = up_loop fuel c it i.
  Proof.
    intros H. induction fuel as [|fuel IH]; intros i; [reflexivity|]. cbn [iup_loop up_loop].
    destruct (-1 <? i).
    - destruct (peek (stack it) i) as [[n dd]|]; [|reflexivity]. destruct (Bool.eqb dd (negb c)); auto.
    - destruct H as [H|(p & H)]; [rewrite H; reflexivity|]. rewrite (On_idx it p H).
      pose proof (On_room T _ Hc it p H) as R. pose proof H as (_ & _ & (Hi & _) & _).
      destruct (Z.ltb_spec (idx it + 1) (Z.of_nat (length (stack it)))); [reflexivity|lia].
  Qed.
  Lemma iup_on c it p : On it p -> iup c it = up c it.
  Proof. intros H. apply iup_loop_eq. eauto. Qed.
  Lemma iup_nil c (it : iter K V) : cur it = E -> iup c it = up c it.
  Proof. intros H. apply iup_loop_eq. auto. Qed.
  Lemma idown_loop_on c fuel : forall it p, On it p -> idown_loop fuel c it = down_loop fuel c it.
  Proof.
    induction fuel as [|fuel IH]; intros it p H; [reflexivity|]. cbn [idown_loop down_loop]. rewrite (idown_on c it p H).
    destruct (down_on T _ Hc c it p H) as (h & k & v & l & r & _ & [(_ & E2)|(_ & it' & E2 & E3 & _)]); rewrite E2; [reflexivity|].
    eapply IH. exact E3.
  Qed.
  Lemma imove_pos c it q : Pos it q -> imove c it = move c it.
  Proof.
    intros H. unfold imove, move. destruct q as [i|]; cbn [AvlIterProofs.Pos] in H.
    - destruct H as [(p & H & _)|H].
      + rewrite (idown_on c it p H). destruct (down_on T _ Hc c it p H) as (h & k & v & l & r & _ & [(_ & E2)|(_ & it' & E2 & E3 & _)]); rewrite E2.
        * rewrite (iup_on c it p H). reflexivity.
        * apply (idown_loop_on _ _ _ _ E3).
      + assert (X : exists d, Off d it) by (destruct H as [(_ & H)|(_ & H)]; eauto). destruct X as (d & X).
        assert (Ec : cur it = E) by apply X. rewrite (idown_nil c it Ec). pose proof (down_off T _ c d it X) as D. destruct (Bool.eqb d c).
        * rewrite D. rewrite (iup_nil c it Ec). reflexivity.
        * destruct D as (it' & p & D1 & D2 & _). rewrite D1. apply (idown_loop_on _ _ _ _ D2).
    - assert (Ec : cur it = E) by apply H. rewrite (idown_nil c it Ec), (down_unset T _ c it H), (iup_nil c it Ec). reflexivity.
  Qed.
  Lemma iend_eq c it : itree it = T -> fits (stack it) -> iend c it = seekToEnd c it.
  Proof.
    intros H1 H2. unfold iend, seekToEnd. destruct (root_cases T) as [Et|(h & k & v & l & r & Et)].
    - rewrite H1, Et. reflexivity.
    - apply (idown_loop_on _ _ _ []). pose proof (start_on T _ it H1 H2 ltac:(congruence)) as S. rewrite H1 in *. exact S.
  Qed.

  Definition ex a b := let c := cmp a b in if c =? 0 then -1 else if c <? 0 then 1 else 0.
  Lemma ex_ok : ex_cmp ltb ex.
  Proof.
    intros a b. unfold ex. cbv zeta. rewrite !Hcmp. destruct (ltb a b) eqn:E1; [rewrite (lt_asym ltb W _ _ E1)|destruct (ltb b a)]; reflexivity.
  Qed.
  Lemma equal_loop_eq key (lg : bool) fuel : forall it p, On it p -> equal_loop cmp fuel key lg it = seek_loop ex fuel false key lg it.
  Proof.
    induction fuel as [|fuel IH]; intros it p H; [reflexivity|]. cbn [equal_loop seek_loop]. destruct (cur it) as [|h k v l r] eqn:Ec; [reflexivity|].
    unfold ex. destruct (Z.eqb_spec (cmp k key) 0); [reflexivity|].
    rewrite (idown_on _ it p H). replace ((if cmp k key <? 0 then 1 else 0) =? 1) with (cmp k key <? 0) by (destruct (cmp k key <? 0); reflexivity).
    destruct (Z.ltb_spec (if cmp k key <? 0 then 1 else 0) 0) as [X|_]; [destruct (cmp k key <? 0); lia|].
    destruct (down_on T _ Hc (cmp k key <? 0) it p H) as (h0 & k0 & v0 & l0 & r0 & _ & [(_ & E2)|(_ & it' & E2 & E3 & _)]); rewrite E2.
    - rewrite (iup_on lg it p H). reflexivity.
    - eapply IH. exact E3.
  Qed.
  Lemma iequal_ok key (lg : bool) x : itree (core x) = T -> fits (stack (core x)) -> (t = E -> idx (core x) = -1) ->
    exists x', iequal cmp key lg x = Some (x', foundb ltb key m) /\
      Pos (core x') (goto m (target T ltb false lg key)) /\ (t <> E -> pos x' = IndexOf cmp key t).
  Proof.
    intros H1 H2 H3. destruct (seek_base T _ Hc ltb W ex ex_ok false lg key (strict_weak ltb W _ Hsort) (core x) Hsort H1 H2 H3) as (it' & E1 & E2).
    unfold iequal, seek in *. rewrite H1 in *. destruct (root_cases T) as [Et|(h & k & v & l & r & Et)].
    - revert E1 E2. rewrite Et. intros E1 E2. injection E1 as <-. eexists. split; [reflexivity|]. cbn [core]. split; [exact E2|congruence].
    - assert (S : On (IT T t (-1) (stack (core x))) []) by (pose proof (start_on T _ (core x) H1 H2 ltac:(congruence)) as S; rewrite H1 in S; exact S).
      replace (match t with E => _ | _ => _ end) with (seek_loop ex (levels t) false key lg (IT T t (-1) (stack (core x)))) in E1 by (rewrite Et; reflexivity).
      rewrite <- (equal_loop_eq key lg _ _ _ S) in E1.
      exists (XIT it' (IndexOf cmp key t)). split; [|cbn [core pos]; auto]. rewrite Et in E1 |- *. rewrite E1. reflexivity.
  Qed.

  (** ** SeekByIndex *)
  Lemma node_ok i (u : tree) : forall b, sized u -> match entry_at (elems u) (Some (i - b)) with
    | Some (k, v) => exists s l r, nodeLoop i (b + kidSize false u) u = Some (N s k v l r)
    | None => nodeLoop i (b + kidSize false u) u = None end.
  Proof.
    induction u as [|s k v l IHl r IHr]; intros b Ht; [cbn [elems]; rewrite entry_at_nil; reflexivity|].
    pose proof Ht as (Hs & Hl & Hr). cbn [nodeLoop elems]. pose proof (kid_left s k v l r Hl) as Ek.
    destruct (b + kidSize false (N s k v l r) >? i) eqn:E1; [|destruct (Z.ltb_spec (b + kidSize false (N s k v l r)) i)].
    - apply Z.gtb_lt in E1. rewrite entry_at_left by lia. destruct l as [|sl kl vl ll lr] eqn:El.
      { cbn [elems]. rewrite entry_at_nil. reflexivity. }
      rewrite <- El in *. pose proof (kid_true l Hl ltac:(congruence)) as Et.
      replace (b + kidSize false (N s k v l r) - (kidSize true l + 1)) with (b + kidSize false l) by lia. apply IHl; auto.
    - rewrite entry_at_right by lia. destruct r as [|sr kr vr rl rr] eqn:Er.
      { cbn [elems]. rewrite entry_at_nil. reflexivity. }
      rewrite <- Er in *.
      replace (b + kidSize false (N s k v l r) + (kidSize false r + 1)) with ((b + kidSize false (N s k v l r) + 1) + kidSize false r) by lia.
      replace (i - b - len (elems l) - 1) with (i - (b + kidSize false (N s k v l r) + 1)) by lia. apply IHr; auto.
    - rewrite Z.gtb_ltb in E1. apply Z.ltb_ge in E1. replace (i - b) with (len (elems l)) by lia. rewrite entry_at_mid. eauto.
  Qed.

  (** ** whole runs *)
  Definition Loose (it : iter K V) (q : option Z) : Prop :=
    itree it = T /\ fits (stack it) /\ (t = E -> idx it = -1) /\
    entry_at m q = match cur it with E => None | N _ k v _ _ => Some (k, v) end.
  Lemma pos_loose it q : Pos it q -> Loose it q.
  Proof.
    intros H. destruct (Pos_base T _ _ _ H) as (H1 & H2). repeat split; auto.
    - intros Et. exact (Pos_empty T _ _ _ Et H).
    - exact (read_pos T _ it q H).
  Qed.
  Definition Inv (x : xiter) (q : option Z) (walk rank : bool) : Prop :=
    Loose (core x) q /\ (walk = true -> Pos (core x) q) /\ (rank = true -> forall i, q = Some i -> pos x = i).
  Lemma goto_empty i : t = E -> goto m i = None.
  Proof. intros ->. reflexivity. Qed.
  Lemma goto_full i : t <> E -> goto m i = Some i.
  Proof. intros H. pose proof (size_pos t H) as X. unfold goto. destruct m; [cbn in X; lia|reflexivity]. Qed.
  Lemma inv_end c x q : Loose (core x) q ->
    exists x', iend c (core x) = Some x' /\ Inv (XIT x' (if c then getSize (root (itree (core x))) - 1 else 0)) (goto m (if c then len m - 1 else 0)) true true.
  Proof.
    intros (H1 & H2 & _). rewrite iend_eq by auto. destruct (seekToEnd_base T _ Hc c (core x) H1 H2) as (it' & E1 & E2).
    exists it'. split; [exact E1|]. split; [apply pos_loose; exact E2|]. split; [auto|]. cbn [pos]. intros _ i. rewrite H1, size_len by exact Hsz.
    destruct (root_cases T) as [Et|(h & k & v & l & r & Et)]; [rewrite goto_empty by exact Et; discriminate|].
    rewrite goto_full by congruence. destruct c; intros [=]; auto.
  Qed.
  Lemma here_foundb key : here ltb key m = foundb ltb key m.
  Proof.
    unfold here, foundb, sames. generalize m. intros y. induction y as [|e x IH]; [reflexivity|]. cbn [existsb filter].
    destruct (same ltb (fst e) key); [reflexivity|]. exact IH.
  Qed.
  Lemma found_foundb key : found ltb key m = @CBool K V (foundb ltb key m).
  Proof. reflexivity. Qed.
  Lemma rank_is key : here ltb key m = true -> IndexOf cmp key t = len (before ltb key m) /\ len (upto ltb key m) = len (before ltb key m) + 1.
  Proof.
    intros H. apply existsb_exists in H as (e & H1 & H2). destruct (in_split _ _ H1) as (a & b & Em).
    pose proof (indexOfLoop_ok ltb W cmp Hcmp key t 0 Hsort Hsz) as X. rewrite !Z.add_0_l in X. unfold IndexOf. rewrite X.
    rewrite Em in *. destruct (cut_same_strict ltb W a e b key H2 Hsort) as (E1 & E2 & _). rewrite E1, E2. split; [reflexivity|].
    unfold upto. destruct (strict_mid ltb _ _ _ Hsort) as (_ & _ & S1 & S2). apply same_iff in H2 as (H2 & H2').
    rewrite filter_app. cbn [filter]. rewrite H2'. cbn [negb].
    rewrite (filter_all _ a). 2:{ intros y Hy. rewrite negb_true_iff. pose proof (S1 _ Hy) as Y. apply (lt_asym ltb W). exact (lt_le ltb W _ _ _ Y H2'). }
    rewrite (filter_none _ b). 2:{ intros y Hy. rewrite negb_false_iff. pose proof (S2 _ Hy) as Y. exact (le_lt ltb W _ _ _ H2 Y). }
    unfold len. rewrite app_length. cbn [length]. lia.
  Qed.
  Lemma inv_equal key (lg : bool) x q : Loose (core x) q ->
    exists x', iequal cmp key lg x = Some (x', foundb ltb key m) /\
      Inv x' (goto m (if lg then len (before ltb key m) else len (upto ltb key m) - 1)) true (here ltb key m).
  Proof.
    intros (H1 & H2 & H3 & _). destruct (iequal_ok key lg x H1 H2 H3) as (x' & E1 & E2 & E3). exists x'. split; [exact E1|].
    rewrite (target_is ltb T) in E2.
    assert (E2' : Pos (core x') (goto m (if lg then len (before ltb key m) else len (upto ltb key m) - 1))) by (destruct lg; exact E2).
    split; [apply pos_loose; exact E2'|]. split; [auto|]. intros Hh i. destruct (root_cases T) as [Et|(h & k & v & l & r & Et)].
    { rewrite goto_empty by exact Et. discriminate. }
    rewrite goto_full by congruence. intros [= <-]. rewrite E3 by congruence. destruct (rank_is key Hh) as (R1 & R2). rewrite R1. destruct lg; lia.
  Qed.
  Lemma inv_move (c : bool) x q rank : Pos (core x) q -> (rank = true -> forall i, q = Some i -> pos x = i) ->
    exists it', imove c (core x) = Some it' /\
      Inv (XIT it' (if c then pos x + 1 else pos x - 1)) (option_map (fun i => if c then Z.min (i + 1) (len m) else Z.max (i - 1) (-1)) q) true
        (rank && rank_kept m q c).
  Proof.
    intros H HR. rewrite (imove_pos c _ q H). destruct (move_pos T _ Hc c (core x) q H) as (it' & E1 & E2). exists it'. split; [exact E1|].
    split; [apply pos_loose; exact E2|]. split; [auto|]. cbn [pos]. rewrite andb_true_iff. intros (R1 & R2) i. destruct q as [j|]; [|discriminate].
    cbn [option_map rank_kept] in *. intros [= <-]. rewrite (HR R1 j eq_refl). destruct c; apply Z.ltb_lt in R2; lia.
  Qed.
  Lemma inv_clone x q walk rank : Inv x q walk rank -> Inv (XIT (iclone (core x)) (pos x)) q walk rank.
  Proof.
    intros H. assert (X : iclone (core x) = core x).
    { destruct H as ((H1 & H2 & _) & _). unfold iclone. rewrite H1, inew_is. cbn [stack]. unfold AvlIterProofs.fits in H2.
      assert (L : Z.to_nat cells = length (stack (core x))) by lia. rewrite L, repeat_length, Nat.min_id, firstn_all.
      rewrite skipn_all2, app_nil_r by (rewrite repeat_length; lia). destruct (core x) as [a b c e]; cbn [itree cur idx stack] in *. rewrite H1. reflexivity. }
    rewrite X. destruct x as [y z]; exact H.
  Qed.

  Lemma xi_run_ok ops : forall x q walk rank, Inv x q walk rank -> plain_calls ltb m q walk rank ops ->
    run (xi_step cmp) x ops = Some (srun (xi_spec ltb m) q ops).
  Proof.
    induction ops as [|o ops IH]; intros x q walk rank HI HP; [reflexivity|]. cbn [run srun plain_calls] in *.
    assert (G : forall x' walk' rank', xi_step cmp x o = Some (x', snd (xi_spec ltb m q o)) -> Inv x' (fst (xi_spec ltb m q o)) walk' rank' ->
      plain_calls ltb m (fst (xi_spec ltb m q o)) walk' rank' ops ->
      match xi_step cmp x o with
      | Some (s', r) => match run (xi_step cmp) s' ops with Some rs => Some (r :: rs) | None => None end
      | None => None end = Some (let (t', r) := xi_spec ltb m q o in r :: srun (xi_spec ltb m) t' ops)).
    { intros x' walk' rank' E1 E2 E3. rewrite E1, (IH x' _ walk' rank' E2 E3). destruct (xi_spec ltb m q o). reflexivity. }
    pose proof HI as (HL & HW & HR). pose proof HL as (L1 & L2 & L3 & L4). destruct o as [o|i|]; [destruct o|..].
    - destruct (inv_end false x q HL) as (x' & E1 & E2). apply (G (XIT x' 0) true true); auto. cbn [xi_step]. rewrite E1. reflexivity.
    - destruct (inv_end true x q HL) as (x' & E1 & E2). apply (G _ true true) with (2 := E2); auto. cbn [xi_step]. rewrite E1. reflexivity.
    - destruct HP as (Hw & HP). destruct (inv_move true x q rank (HW Hw) HR) as (it' & E1 & E2).
      apply (G _ _ _) with (2 := E2); auto. cbn [xi_step]. rewrite E1. reflexivity.
    - destruct HP as (Hw & HP). destruct (inv_move false x q rank (HW Hw) HR) as (it' & E1 & E2).
      apply (G _ _ _) with (2 := E2); auto. cbn [xi_step]. rewrite E1. reflexivity.
    - destruct (inv_equal k true x q HL) as (x' & E1 & E2). apply (G _ _ _) with (2 := E2); auto. cbn [xi_step]. rewrite E1. reflexivity.
    - contradiction.
    - destruct (inv_equal k false x q HL) as (x' & E1 & E2). apply (G _ _ _) with (2 := E2); auto. cbn [xi_step]. rewrite E1. reflexivity.
    - contradiction.
    - apply (G x walk rank); auto. cbn [xi_step xi_spec cursor_spec snd]. rewrite L4. destruct (cur (core x)); reflexivity.
    - apply (G x walk rank); auto. cbn [xi_step xi_spec cursor_spec snd]. rewrite L4. destruct (cur (core x)); reflexivity.
    - apply (G x walk rank); auto. cbn [xi_step xi_spec cursor_spec snd]. rewrite L4. destruct (cur (core x)); reflexivity.
    - apply (G _ _ _) with (2 := inv_clone x q walk rank HI); auto.
    - cbn [xi_spec fst] in HP. cbn [xi_spec fst snd xi_step] in G. unfold ibyIndex in G. rewrite L1, size_len in G by exact Hsz.
      pose proof (node_ok i t 0 Hsz) as X. rewrite Z.add_0_l, Z.sub_0_r in X.
      cbn [xi_step xi_spec]. unfold ibyIndex. rewrite L1, size_len by exact Hsz.
      destruct (Z.leb_spec 0 i) as [Hi|Hi]; [destruct (Z.ltb_spec i (len m)) as [Hi'|Hi']|].
      + replace ((i <? 0) || (len m <=? i)) with false in * by (symmetry; rewrite orb_false_iff, Z.ltb_ge, Z.leb_gt; lia).
        cbn [andb] in *. destruct (entry_at_some m i ltac:(lia)) as ([k v] & Ee). rewrite Ee in X. destruct X as (s & l & r & X). rewrite X in *.
        eapply (G _ false true); [reflexivity| |exact HP]. split; [|split; [discriminate|]].
        * unfold Loose; cbn [core itree stack idx cur]. rewrite Ee. auto.
        * cbn [pos]. intros _ j [=]. auto.
      + replace ((i <? 0) || (len m <=? i)) with true in * by (symmetry; rewrite orb_true_iff, Z.ltb_lt, Z.leb_le; lia).
        cbn [andb] in *. eapply (G _ false false); [reflexivity| |exact HP]. split; [|split; discriminate].
        unfold Loose; cbn [core itree stack idx cur entry_at]. auto.
      + replace ((i <? 0) || (len m <=? i)) with true in * by (symmetry; rewrite orb_true_iff, Z.ltb_lt, Z.leb_le; lia).
        cbn [andb] in *. eapply (G _ false false); [reflexivity| |exact HP]. split; [|split; discriminate].
        unfold Loose; cbn [core itree stack idx cur entry_at]. auto.
    - destruct HP as (Hr & Hq & HP). apply (G x walk rank); auto. cbn [xi_step xi_spec snd]. destruct q as [j|]; [|congruence].
      rewrite (HR Hr j eq_refl). reflexivity.
  Qed.
  Lemma xi_new_ok ops : plain_calls ltb m None true false ops ->
    run (xi_step cmp) (XIT (inew T) 0) ops = Some (srun (xi_spec ltb m) None ops).
  Proof.
    intros H. apply (xi_run_ok ops _ None true false); [|exact H]. split; [apply pos_loose; exact inew_pos|].
    split; [intros _; exact inew_pos|discriminate].
  Qed.
End Proofs.
