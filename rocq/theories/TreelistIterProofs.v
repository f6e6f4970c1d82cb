(** Tree lists: iterators and range iterators. *)
From Verif Require Import Base Bind Machine OrderSpec SMapSpec SMapFacts AvlTree AvlSpec AvlModel AvlProofs AvlAny IndexSpec IndexModel IndexProofs
  TreelistSpec TreelistModel TreelistLinks TreelistProofs TreelistSteps TreelistIterModel.
Local Open Scope Z_scope.

Section Iter.
  Context {K V : Type} (ltb : K -> K -> bool) (W : weak_order ltb) (cmp : K -> K -> Z) (Hcmp : plain_cmp ltb cmp).
  Notation tls := (TreelistModel.tl K V).
  Notation node := (nat * V)%type.
  Notation tree := (tree K node).
  Notation linkedl lk l := (linked (d lk) (e lk) l).

  (** the number of the node at a position *)
  Definition posId (el : list (K * node)) (i : Z) : option nat := option_map (fun x => fst (snd x)) (entry_at el (Some i)).
  Lemma at_split (el : list (K * node)) i x : entry_at el (Some i) = Some x -> exists a b, el = a ++ x :: b /\ i = len a.
  Proof.
    intros E1. destruct (Z_le_gt_dec 0 i); [destruct (Z_lt_ge_dec i (len el))|]; [|rewrite entry_at_none in E1 by lia; discriminate..].
    rewrite entry_at_in in E1 by lia. destruct (nth_error_split _ _ E1) as (a & b & -> & E2). exists a, b. split; auto. unfold len. lia.
  Qed.
  Lemma posId_last (el : list (K * node)) : posId el (len el - 1) = last_error (ids el).
  Proof.
    destruct (snoc_cases el) as [->|(a & x & ->)]; [reflexivity|]. rewrite ids_app, ids_cons. cbn [ids map]. rewrite last_snoc.
    unfold posId. rewrite len_mid. change (len []) with 0. replace (len a + 0 + 1 - 1) with (len a) by lia. rewrite entry_at_mid. reflexivity.
  Qed.
  Lemma posId_first (el : list (K * node)) : posId el 0 = hd_error (ids el).
  Proof. destruct el as [|x el]; [reflexivity|]. change 0 with (len (@nil (K * node))). unfold posId. change (x :: el) with ([] ++ x :: el). rewrite entry_at_mid. reflexivity. Qed.
  Lemma near lk (el : list (K * node)) i k x v : linkedl lk (ids el) -> entry_at el (Some i) = Some (k, (x, v)) ->
    d lk x true = posId el (i + 1) /\ d lk x false = posId el (i - 1).
  Proof.
    intros HL E1. destruct (at_split _ _ _ E1) as (a & b & -> & ->). rewrite ids_app, ids_cons in HL. cbn [fst snd] in HL.
    rewrite (linked_right lk _ _ _ HL), (linked_left lk _ _ _ HL). unfold posId. split.
    - rewrite entry_at_right by lia. replace (len a + 1 - len a - 1) with 0 by lia. symmetry. apply posId_first.
    - rewrite entry_at_left by lia. symmetry. apply posId_last.
  Qed.

  Ltac side3 key ck := destruct (plain_cases ltb cmp Hcmp key ck) as [[Hc Ho]|[[Hc Ho]|[Hc Ho]]]; rewrite Hc;
    [change (-1 <? 0) with true
    |change (1 <? 0) with false; change (1 >? 0) with true
    |change (0 <? 0) with false; change (0 >? 0) with false]; cbv iota.
  Ltac cutL key := match goal with Ho : ltb key ?ck = true |- context[elems ?l ++ (?ck, ?cv) :: elems ?r] =>
    destruct (cut_left ltb W (elems l) (ck, cv) (elems r) key Ho) as (C1 & C2 & C3);
    [intros y Hy; apply (lt_asym _ W); auto|] end.
  Ltac cutR key := match goal with Ho : ltb ?ck key = true |- context[elems ?l ++ (?ck, ?cv) :: elems ?r] =>
    destruct (cut_right ltb W (elems l) (ck, cv) (elems r) key Ho) as (C1 & C2 & C3);
    [intros y Hy; apply (lt_asym _ W); auto|] end.
  Ltac cutS key := match goal with Ho : same ltb ?ck key = true, Hs : strictly_sorted ltb _ |- context[elems ?l ++ (?ck, ?cv) :: elems ?r] =>
    destruct (cut_same_strict ltb W (elems l) (ck, cv) (elems r) key Ho Hs) as (C1 & C2 & C3) end.

  (** where a search ends: at the key, just before or just after where it would be *)
  Definition ends_at key (el : list (K * node)) (j c : Z) : Prop :=
    match sames ltb key el with
    | [] => (c = -1 /\ j = len (before ltb key el)) \/ (c = 1 /\ j = len (before ltb key el) - 1)
    | _ => c = 0 /\ j = len (before ltb key el)
    end.
  Lemma seekLoop_ok key t : forall b, strictly_sorted ltb (elems t) -> sized t -> t <> E ->
    exists x c k v j, seekLoop cmp key (b + kidSize false t) t = Some (x, b + j, c) /\ entry_at (elems t) (Some j) = Some (k, (x, v)) /\
      ends_at key (elems t) j c.
  Proof.
    induction t as [|s ck [i cv] l IHl r IHr]; intros b Hs Ht Hne; [congruence|]. pose proof Ht as (Hz & Hl & Hr).
    cbn [elems] in Hs |- *. destruct (strict_mid ltb _ _ _ Hs) as (Sl & Sr & Ll & Lr). rewrite kid_left by auto. cbn [seekLoop].
    unfold ends_at. side3 key ck.
    - cutL key. rewrite C1, C2. destruct l as [|ls lk lv ll lr] eqn:El.
      + exists i, (-1), ck, cv, 0. split; [reflexivity|]. split; [exact (entry_at_mid [] (ck, (i, cv)) (elems r))|]. cbn. auto.
      + rewrite <- El in *. assert (Hne' : l <> E) by (subst; congruence). destruct (IHl b Sl Hl Hne') as (x & c & k & v & j & E1 & E2 & E3).
        assert (Hk : b + len (elems l) - (getSize lr + 1) = b + kidSize false l).
        { pose proof (kid_true l Hl Hne'). replace (kidSize true l) with (getSize lr) in * by (subst; reflexivity). lia. }
        rewrite Hk. exists x, c, k, v, j. split; [exact E1|]. split; [|exact E3].
        rewrite entry_at_left; auto. destruct (at_split _ _ _ E2) as (p & q & -> & ->). rewrite len_mid. pose proof (len_nonneg q). lia.
    - cutR key. rewrite C1, C2, len_mid. destruct r as [|rs rk rv rl rr] eqn:Er.
      + exists i, 1, ck, cv, (len (elems l)). split; [reflexivity|]. split; [apply entry_at_mid|]. cbn. right. split; [auto|lia].
      + rewrite <- Er in *. assert (Hne' : r <> E) by (subst; congruence).
        destruct (IHr (b + len (elems l) + 1) Sr Hr Hne') as (x & c & k & v & j & E1 & E2 & E3).
        replace (kidSize false r) with (getSize rl) in E1 by (subst; reflexivity).
        exists x, c, k, v, (len (elems l) + 1 + j). destruct (at_split _ _ _ E2) as (p & q & Ep & Ej). split; [|split].
        * replace (b + len (elems l) + (getSize rl + 1)) with (b + len (elems l) + 1 + getSize rl) by lia. rewrite E1. f_equal. f_equal. f_equal. lia.
        * rewrite entry_at_right by (pose proof (len_nonneg p); lia). replace (len (elems l) + 1 + j - len (elems l) - 1) with j by lia. exact E2.
        * unfold ends_at in E3. destruct (sames ltb key (elems r)); lia.
    - cutS key. rewrite C1, C2. exists i, 0, ck, cv, (len (elems l)). split; [reflexivity|]. split; [apply entry_at_mid|]. auto.
  Qed.

  Section At.
    Context (s : tls) (m : list (K * V)) (HR : TRel ltb false s m).
    Notation el := (elems (top s)).
    Definition at_pos (i : Z) : hNode := H (posId el i) i.
    Lemma upto_len k : len (upto ltb k m) = len (before ltb k m) + match sames ltb k m with [] => 0 | _ => 1 end.
    Proof.
      destruct HR as (_ & _ & Hs & _). pose proof (cut_all ltb W m k (strict_weak ltb W _ Hs)) as CA.
      assert (U : upto ltb k m = before ltb k m ++ sames ltb k m).
      { rewrite CA at 1. unfold upto. rewrite !filter_app. rewrite filter_all, (filter_all _ (sames ltb k m)), filter_none, app_nil_r; auto.
        - intros x Hx. apply filter_In in Hx. rewrite (proj2 Hx). reflexivity.
        - intros x Hx. apply filter_In in Hx. destruct Hx as (_ & Hx). apply same_iff in Hx. destruct Hx as (X1 & X2). rewrite X2. reflexivity.
        - intros x Hx. apply filter_In in Hx. rewrite (lt_asym _ W _ _ (proj2 Hx)). reflexivity. }
      rewrite U. unfold len. rewrite app_length. destruct (strict_sames ltb W m k Hs) as [->|(x & ->)]; cbn [length]; lia.
    Qed.
    Lemma m_len : len m = len el. Proof. destruct HR as (<- & _). apply pk_len. Qed.

    Lemma seekNode_ok key : m <> [] -> exists x c k v j, seekNodeWithIndex cmp key (top s) = Some (x, j, c) /\
      entry_at el (Some j) = Some (k, (x, v)) /\
      match sames ltb key m with
      | [] => (c = -1 /\ j = len (before ltb key m)) \/ (c = 1 /\ j = len (before ltb key m) - 1)
      | _ => c = 0 /\ j = len (before ltb key m)
      end.
    Proof.
      intros Hm. destruct HR as (E1 & E2 & E3 & _). assert (Hne : top s <> E) by (intros X; rewrite X in E1; cbn in E1; congruence).
      assert (Hs : strictly_sorted ltb el) by (rewrite <- E1 in E3; apply pk_sorted in E3; exact E3).
      destruct (seekLoop_ok key (top s) 0 Hs E2 Hne) as (x & c & k & v & j & F1 & F2 & F3). exists x, c, k, v, j.
      rewrite !Z.add_0_l in F1. split; [|split; [exact F2|]].
      - unfold seekNodeWithIndex. destruct (top s) as [|? ? ? l r]; [congruence|]. exact F1.
      - rewrite <- E1, pk_before, pk_sames, pk_len. unfold ends_at in F3. destruct (sames ltb key el); exact F3.
    Qed.
    Lemma seek_ok dir off key : m <> [] -> exists j c, seek cmp dir off key s = Some (at_pos (if off c then if dir then j + 1 else j - 1 else j), c =? 0) /\
      match sames ltb key m with
      | [] => (c = -1 /\ j = len (before ltb key m)) \/ (c = 1 /\ j = len (before ltb key m) - 1)
      | _ => c = 0 /\ j = len (before ltb key m)
      end.
    Proof.
      intros Hm. destruct (seekNode_ok key Hm) as (x & c & k & v & j & E1 & E2 & E3). exists j, c. split; [|exact E3].
      unfold seek. rewrite E1. destruct HR as (_ & _ & _ & _ & _ & HL & _). destruct (near (lks s) el j k x v (HL eq_refl) E2) as (N1 & N2).
      f_equal. f_equal. unfold at_pos. destruct (off c).
      - destruct dir; [rewrite N1|rewrite N2]; reflexivity.
      - unfold posId. rewrite E2. reflexivity.
    Qed.
    Definition found key : bool := match sames ltb key m with [] => false | _ => true end.
    Lemma SeekGE_ok key : m <> [] -> SeekGE cmp key s = Some (at_pos (len (before ltb key m)), found key).
    Proof.
      intros Hm. unfold SeekGE, found. destruct (seek_ok true (fun c => c >? 0) key Hm) as (j & c & -> & E).
      destruct (sames ltb key m); [destruct E as [(-> & ->)|(-> & ->)]|destruct E as (-> & ->)]; cbn; auto. do 3 f_equal. lia.
    Qed.
    Lemma SeekGT_ok key : m <> [] -> SeekGT cmp key s = Some (at_pos (len (upto ltb key m)), found key).
    Proof.
      intros Hm. unfold SeekGT, found. rewrite upto_len. destruct (seek_ok true (fun c => c >=? 0) key Hm) as (j & c & -> & E).
      destruct (sames ltb key m); [destruct E as [(-> & ->)|(-> & ->)]|destruct E as (-> & ->)]; cbn; do 3 f_equal; lia.
    Qed.
    Lemma SeekLE_ok key : m <> [] -> SeekLE cmp key s = Some (at_pos (len (upto ltb key m) - 1), found key).
    Proof.
      intros Hm. unfold SeekLE, found. rewrite upto_len. destruct (seek_ok false (fun c => c <? 0) key Hm) as (j & c & -> & E).
      destruct (sames ltb key m); [destruct E as [(-> & ->)|(-> & ->)]|destruct E as (-> & ->)]; cbn; do 3 f_equal; lia.
    Qed.
    Lemma SeekLT_ok key : m <> [] -> SeekLT cmp key s = Some (at_pos (len (before ltb key m) - 1), found key).
    Proof.
      intros Hm. unfold SeekLT, found. destruct (seek_ok false (fun c => c <=? 0) key Hm) as (j & c & -> & E).
      destruct (sames ltb key m); [destruct E as [(-> & ->)|(-> & ->)]|destruct E as (-> & ->)]; cbn; do 3 f_equal; lia.
    Qed.

    Lemma pos_entry i : entry_at m (Some i) = option_map plainKV (entry_at el (Some i)).
    Proof. destruct HR as (<- & _). apply pk_entry_at. Qed.
    Lemma pos_slice i : match posId el i with Some x => slice x (top s) | None => None end = entry_at m (Some i).
    Proof.
      rewrite pos_entry. unfold posId. destruct (entry_at el (Some i)) as [[k [x v]]|] eqn:E; [|reflexivity]. cbn [option_map fst snd plainKV].
      destruct HR as (_ & _ & _ & Hn & _). apply slice_ok; auto. destruct (at_split _ _ _ E) as (a & b & -> & _). apply in_elt.
    Qed.
    Lemma here_ok i : here s (at_pos i) = entry_at m (Some i).
    Proof. rewrite <- pos_slice. unfold here, at_pos. cbn [cur]. destruct (posId el i); reflexivity. Qed.
    Lemma pos_next i x : posId el i = Some x -> d (lks s) x true = posId el (i + 1) /\ d (lks s) x false = posId el (i - 1).
    Proof.
      unfold posId at 1. destruct (entry_at el (Some i)) as [[k [y v]]|] eqn:E; [|discriminate]. cbn [option_map fst snd]. intros X. injection X as ->.
      destruct HR as (_ & _ & _ & _ & _ & HL & _). apply (near (lks s) el i k x v (HL eq_refl) E).
    Qed.
    Lemma pos_valid i : match posId el i with Some _ => true | None => false end = match entry_at m (Some i) with Some _ => true | None => false end.
    Proof. rewrite pos_entry. unfold posId. destruct (entry_at el (Some i)); reflexivity. Qed.

    Definition IRel (h : hNode) (p : option Z) : Prop := h = match p with None => H None 0 | Some i => at_pos i end.
    Lemma iter_ok h p o : IRel h p -> call_ok m p o ->
      IRel (fst (ti_step cmp s h o)) (fst (ti_spec ltb m p o)) /\ snd (ti_step cmp s h o) = snd (ti_spec ltb m p o).
    Proof.
      intros -> Hc. assert (Hh : here s match p with None => H None 0 | Some i => at_pos i end = entry_at m p) by (destruct p; [apply here_ok|reflexivity]).
      pose proof HR as (E1 & E2 & _ & _ & _ & HL & _). destruct (HL eq_refl) as (L1 & L2 & _).
      destruct o; cbn [ti_step ti_spec call_ok] in *; rewrite ?Hh.
      - split; [|reflexivity]. unfold IRel, at_pos. cbn [fst]. rewrite L1, posId_first. reflexivity.
      - split; [|reflexivity]. unfold IRel, at_pos. cbn [fst]. rewrite L2, m_len, posId_last. unfold getSize. rewrite size_len by auto. reflexivity.
      - destruct p as [i|]; [|cbn; unfold IRel; auto]. cbn [at_pos cur idx]. pose proof (pos_valid i) as Hv. destruct (posId el i) as [x|] eqn:Ex.
        + destruct (entry_at m (Some i)); [|discriminate]. destruct (pos_next i x Ex) as (-> & _). cbn. unfold IRel; auto.
        + destruct (entry_at m (Some i)); [discriminate|]. cbn. unfold IRel, at_pos. rewrite Ex. auto.
      - destruct p as [i|]; [|destruct (Hc eq_refl)]. cbn [at_pos cur idx]. pose proof (pos_valid i) as Hv. destruct (posId el i) as [x|] eqn:Ex.
        + destruct (entry_at m (Some i)); [|discriminate]. destruct (pos_next i x Ex) as (_ & ->). cbn. unfold IRel; auto.
        + destruct (entry_at m (Some i)); [discriminate|congruence].
      - rewrite SeekGE_ok by auto. unfold IRel, ti_found, found. auto.
      - rewrite SeekGT_ok by auto. unfold IRel, ti_found, found. auto.
      - rewrite SeekLE_ok by auto. unfold IRel, ti_found, found. auto.
      - rewrite SeekLT_ok by auto. unfold IRel, ti_found, found. auto.
      - unfold index. rewrite index_ok by auto. rewrite m_len. destruct (Z.leb_spec 0 i); cbn [andb]; [destruct (Z.ltb_spec i (len el))|].
        + destruct (entry_at_some el i) as ([k [x v]] & X); [lia|]. rewrite X. cbn. unfold IRel, at_pos, posId. rewrite X. auto.
        + rewrite entry_at_none by lia. cbn. unfold IRel; auto.
        + rewrite entry_at_none by lia. cbn. unfold IRel; auto.
      - split; [unfold IRel; auto|]. destruct p as [i|]; [|reflexivity]. cbn [at_pos cur snd]. rewrite pos_valid. destruct (entry_at m (Some i)); reflexivity.
      - split; [unfold IRel; auto|]. cbn [snd]. destruct (entry_at m p) as [[? ?]|]; reflexivity.
      - split; [unfold IRel; auto|]. cbn [snd]. destruct (entry_at m p) as [[? ?]|]; reflexivity.
      - split; [unfold IRel; auto|]. cbn [snd]. destruct (entry_at m p) as [[? ?]|]; reflexivity.
      - split; [unfold IRel; auto|]. cbn [snd]. destruct (entry_at m p) as [[k0 ?]|]; [|reflexivity]. cbn [fst]. f_equal. unfold sign.
        destruct (plain_cases ltb cmp Hcmp k0 k) as [[-> Ho]|[[-> Ho]|[-> Ho]]].
        + rewrite Ho. reflexivity.
        + rewrite Ho, (lt_asym _ W _ _ Ho). reflexivity.
        + apply same_iff in Ho. destruct Ho as (-> & ->). reflexivity.
      - split; [unfold IRel; auto|]. destruct p; reflexivity.
      - split; [unfold IRel|reflexivity]. cbn [fst]. destruct p; reflexivity.
    Qed.
    (** ** range iterators *)
    Notation num := (numbered m).
    Lemma nth_combine {A B} (l : list A) (l' : list B) i x y : nth_error l i = Some x -> nth_error l' i = Some y -> nth_error (combine l l') i = Some (x, y).
    Proof. revert l' i. induction l as [|a l IH]; intros [|b l'] [|i] E1 E2; cbn in *; try discriminate; [congruence|auto]. Qed.
    Lemma num_length : length num = length m.
    Proof. unfold numbered. rewrite combine_length, map_length, seq_length. lia. Qed.
    Lemma num_fst : map fst num = m.
    Proof.
      unfold numbered. assert (X : forall (A B : Type) (l : list A) (l' : list B), length l = length l' -> map fst (combine l l') = l).
      { intros A B l. induction l as [|a l IH]; intros [|b l'] E; cbn in *; try discriminate; f_equal; auto. }
      apply X. rewrite map_length, seq_length. reflexivity.
    Qed.
    Lemma num_nth i kv : entry_at m (Some i) = Some kv -> nth_error num (Z.to_nat i) = Some (kv, i).
    Proof.
      intros E1. assert (Hi : 0 <= i < len m).
      { destruct (Z_le_gt_dec 0 i); [destruct (Z_lt_ge_dec i (len m))|]; [lia|rewrite entry_at_none in E1 by lia; discriminate..]. }
      rewrite entry_at_in in E1 by lia. unfold len in Hi. apply nth_combine; auto.
      assert (X : nth_error (seq 0 (length m)) (Z.to_nat i) = Some (Z.to_nat i)).
      { rewrite (nth_error_nth' _ 0%nat) by (rewrite seq_length; lia). rewrite seq_nth by lia. reflexivity. }
      rewrite (map_nth_error Z.of_nat _ _ X). f_equal. lia.
    Qed.
    Lemma cut_prefix {X} (P : X -> bool) (l : list X) : StronglySorted (fun x y => P y = true -> P x = true) l ->
      Forall (fun x => P x = true) (firstn (length (filter P l)) l) /\ Forall (fun x => P x = false) (skipn (length (filter P l)) l).
    Proof.
      induction l as [|x l IH]; intros Hs; [split; constructor|]. inversion Hs as [|? ? Hs' Hx]; subst. cbn [filter]. destruct (P x) eqn:E1; cbn [length firstn skipn].
      - destruct (IH Hs') as (A & B). split; [constructor; auto|exact B].
      - assert (F : Forall (fun y => P y = false) l).
        { eapply Forall_impl; [|exact Hx]. cbn. intros y Hy. destruct (P y) eqn:Ey; auto. discriminate (Hy eq_refl). }
        rewrite (filter_none P l). { split; [constructor|constructor; auto]. }
        rewrite Forall_forall in F. exact F.
    Qed.
    Lemma num_prefix (P : K -> bool) : (forall x y, ltb x y = true -> P y = true -> P x = true) ->
      StronglySorted (fun x y => P (fst (fst y)) = true -> P (fst (fst x)) = true) num.
    Proof.
      intros HP. destruct HR as (_ & _ & Hs & _). rewrite <- num_fst in Hs. clear -HP Hs. unfold strictly_sorted in Hs.
      induction num as [|x l IH]; [constructor|]. cbn [map] in Hs. inversion Hs as [|? ? Hs' Hx]; subst. constructor; auto.
      rewrite Forall_map in Hx. eapply Forall_impl; [|exact Hx]. cbn. intros y. apply HP.
    Qed.
    Lemma num_count (P : K -> bool) : length (filter (fun p => P (fst (fst p))) num) = length (filter (fun x => P (fst x)) m).
    Proof.
      rewrite <- num_fst at 2. induction num as [|x l IH]; [reflexivity|]. cbn [filter map]. destruct (P (fst (fst x))); cbn [length]; auto.
    Qed.
    Definition low (gt : bool) lo := if gt then upto ltb lo m else before ltb lo m.
    Definition high (lt : bool) hi := if lt then before ltb hi m else upto ltb hi m.
    Lemma range_is gt lt lo hi : range_of ltb gt lt lo hi m = skipn (length (low gt lo)) (firstn (length (high lt hi)) num).
    Proof.
      set (P := fun k : K => if gt then negb (ltb lo k) else ltb k lo). set (Q := fun k : K => if lt then ltb k hi else negb (ltb hi k)).
      assert (HP : forall x y, ltb x y = true -> P y = true -> P x = true).
      { intros x y Hxy. unfold P. destruct gt; [|intros X; exact (wo_trans _ W _ _ _ Hxy X)].
        intros X. destruct (ltb lo x) eqn:Y; auto. rewrite (wo_trans _ W _ _ _ Y Hxy) in X. discriminate. }
      assert (HQ : forall x y, ltb x y = true -> Q y = true -> Q x = true).
      { intros x y Hxy. unfold Q. destruct lt; [intros X; exact (wo_trans _ W _ _ _ Hxy X)|].
        intros X. destruct (ltb hi x) eqn:Y; auto. rewrite (wo_trans _ W _ _ _ Y Hxy) in X. discriminate. }
      destruct (cut_prefix _ _ (num_prefix P HP)) as (P1 & P2). destruct (cut_prefix _ _ (num_prefix Q HQ)) as (Q1 & Q2).
      rewrite num_count in P1, P2, Q1, Q2.
      replace (length (filter (fun x => P (fst x)) m)) with (length (low gt lo)) in P1, P2 by (unfold low, P, upto, before; destruct gt; reflexivity).
      replace (length (filter (fun x => Q (fst x)) m)) with (length (high lt hi)) in Q1, Q2 by (unfold high, Q, upto, before; destruct lt; reflexivity).
      set (a := length (low gt lo)) in *. set (b := length (high lt hi)) in *.
      assert (HI : forall x, inside ltb gt lt lo hi x = negb (P x) && Q x).
      { intros x. unfold inside, P, Q. destruct gt, lt; rewrite ?negb_involutive; reflexivity. }
      unfold range_of. rewrite Forall_forall in P1, P2, Q1, Q2.
      destruct (Nat.le_gt_cases a b) as [Hab|Hab].
      - rewrite <- (firstn_skipn b num) at 1. rewrite filter_app, (filter_none _ (skipn b num)), app_nil_r.
        2:{ intros x Hx. rewrite HI, (Q2 _ Hx). apply andb_false_r. }
        rewrite <- (firstn_skipn a (firstn b num)) at 1. rewrite filter_app, filter_none, filter_all; auto.
        + intros x Hx. rewrite HI. rewrite (Q1 x), (P2 x); auto.
          * rewrite <- (firstn_skipn b num), skipn_app. apply in_or_app. auto.
          * rewrite <- (firstn_skipn a (firstn b num)). apply in_or_app. auto.
        + intros x Hx. rewrite firstn_firstn, Nat.min_l in Hx by lia. rewrite HI, (P1 x) by auto. reflexivity.
      - rewrite (skipn_all2 (firstn b num)) by (rewrite firstn_length; lia). apply filter_none. intros x Hx.
        rewrite <- (firstn_skipn b num) in Hx. apply in_app_or in Hx. rewrite HI. destruct Hx as [Hx|Hx].
        + rewrite (P1 x). reflexivity. replace b with (Nat.min b a) in Hx by lia. rewrite <- firstn_firstn in Hx.
          rewrite <- (firstn_skipn b (firstn a num)). apply in_or_app. auto.
        + rewrite (Q2 _ Hx). apply andb_false_r.
    Qed.

    Lemma cut_cons {X} (l : list X) a b x : nth_error l a = Some x -> (a < b)%nat -> skipn a (firstn b l) = x :: skipn (S a) (firstn b l).
    Proof.
      revert a b. induction l as [|y l IH]; intros [|a] [|b] E1 Hab; try discriminate; try lia; cbn in E1.
      - injection E1 as ->. reflexivity.
      - cbn [firstn]. rewrite !skipn_cons. apply IH; auto; lia.
    Qed.
    Lemma cut_snoc {X} (l : list X) a b x : nth_error l b = Some x -> (a <= b)%nat -> skipn a (firstn (S b) l) = skipn a (firstn b l) ++ [x].
    Proof.
      revert a b. induction l as [|y l IH]; intros a [|b] E1 Hab; try discriminate; cbn in E1.
      - injection E1 as ->. replace a with 0%nat by lia. reflexivity.
      - destruct a as [|a].
        + cbn [skipn]. rewrite !(firstn_cons _ y l). cbn [app]. f_equal. apply (IH 0%nat b E1). lia.
        + rewrite !(firstn_cons _ y l), !skipn_cons. apply IH; auto; lia.
    Qed.

    Lemma pos_at i : 0 <= i < len m -> exists x kv, posId el i = Some x /\ entry_at m (Some i) = Some kv /\ slice x (top s) = Some kv.
    Proof.
      intros Hi. pose proof (pos_slice i) as Hp. destruct (entry_at_some m i Hi) as (kv & Hk). rewrite Hk in Hp.
      destruct (posId el i) as [x|] eqn:Ex; [|discriminate]. eauto.
    Qed.
    Lemma pos_inj i j x : posId el i = Some x -> posId el j = Some x -> i = j.
    Proof.
      assert (X : forall q, posId el q = Some x -> 0 <= q /\ nth_error (ids el) (Z.to_nat q) = Some x).
      { intros q. unfold posId. destruct (entry_at el (Some q)) as [y|] eqn:Ey; [|discriminate]. cbn. intros Z0. injection Z0 as <-.
        destruct (at_split _ _ _ Ey) as (a & b & -> & ->). pose proof (len_nonneg a). split; [lia|]. unfold len. rewrite Nat2Z.id.
        rewrite ids_app, ids_cons, nth_error_app2 by (unfold ids; rewrite map_length; lia). unfold ids at 2. rewrite map_length, Nat.sub_diag. reflexivity. }
      intros E1 E2. destruct (X _ E1) as (P1 & N1), (X _ E2) as (P2 & N2). destruct HR as (_ & _ & _ & Hn & _).
      assert (Hd : NoDup (ids el)) by exact Hn.
      assert (Hl : (Z.to_nat i < length (ids el))%nat) by (apply nth_error_Some; congruence).
      rewrite NoDup_nth_error in Hd. specialize (Hd (Z.to_nat i) (Z.to_nat j) Hl). rewrite N1, N2 in Hd. specialize (Hd eq_refl). lia.
    Qed.
    Lemma loop_forward go n : forall fuel i j acc, 0 <= i -> j = i + Z.of_nat n -> j < len m -> (n < fuel)%nat ->
      rangeLoop fuel s go true (posId el i) (posId el j) i acc =
      Some (until go acc (skipn (Z.to_nat i) (firstn (Z.to_nat (j + 1)) num))).
    Proof.
      induction n as [|n IH]; intros fuel i j acc Hi Hj Hm Hf; (destruct fuel as [|fuel]; [lia|]); cbn [rangeLoop];
        (destruct (pos_at i) as (x & kv & E1 & E2 & E3); [lia|]); rewrite E1; rewrite E3;
        rewrite (cut_cons num _ _ (kv, i)) by (try apply num_nth; auto; lia); cbn [until].
      - assert (X : j = i) by lia. clear Hj. subst j. rewrite E1, Nat.eqb_refl, orb_true_r. rewrite skipn_all2 by (rewrite firstn_length; lia). cbn [until].
        destruct (go _); reflexivity.
      - destruct (pos_at j) as (y & kv' & F1 & F2 & F3); [lia|]. rewrite F1. destruct (Nat.eqb_spec x y) as [->|Hxy].
        { exfalso. pose proof (pos_inj _ _ _ E1 F1). lia. }
        rewrite orb_false_r. destruct (go _); cbn [negb]; [|reflexivity]. rewrite (proj1 (pos_next i x E1)), <- F1.
        rewrite (IH fuel (i + 1) j) by lia. replace (Z.to_nat (i + 1)) with (S (Z.to_nat i)) by lia. reflexivity.
    Qed.
    Lemma loop_backward go n : forall fuel i j acc, 0 <= i -> j = i + Z.of_nat n -> j < len m -> (n < fuel)%nat ->
      rangeLoop fuel s go false (posId el j) (posId el i) j acc =
      Some (until go acc (rev (skipn (Z.to_nat i) (firstn (Z.to_nat (j + 1)) num)))).
    Proof.
      induction n as [|n IH]; intros fuel i j acc Hi Hj Hm Hf; (destruct fuel as [|fuel]; [lia|]); cbn [rangeLoop];
        (destruct (pos_at j) as (x & kv & E1 & E2 & E3); [lia|]); rewrite E1; rewrite E3;
        replace (Z.to_nat (j + 1)) with (S (Z.to_nat j)) by lia;
        rewrite (cut_snoc num _ _ (kv, j)) by (try apply num_nth; auto; lia); rewrite rev_app_distr; cbn [rev app until].
      - assert (X : j = i) by lia. clear Hj. subst j. rewrite E1, Nat.eqb_refl, orb_true_r. rewrite skipn_all2 by (rewrite firstn_length; lia). cbn [rev until].
        destruct (go _); reflexivity.
      - destruct (pos_at i) as (y & kv' & F1 & F2 & F3); [lia|]. rewrite F1. destruct (Nat.eqb_spec x y) as [->|Hxy].
        { exfalso. pose proof (pos_inj _ _ _ E1 F1). lia. }
        rewrite orb_false_r. destruct (go _); cbn [negb]; [|reflexivity]. rewrite (proj2 (pos_next j x E1)), <- F1.
        rewrite (IH fuel i (j - 1)) by lia. replace (Z.to_nat (j - 1 + 1)) with (Z.to_nat j) by lia. reflexivity.
    Qed.

    Lemma filter_length_le {X} (f : X -> bool) l : (length (filter f l) <= length l)%nat.
    Proof. induction l as [|x l IH]; [auto|]. cbn [filter]. destruct (f x); cbn [length]; lia. Qed.
    Lemma high_len lt hi : len (high lt hi) <= len m.
    Proof. unfold high, upto, before, len. destruct lt; apply inj_le, filter_length_le. Qed.
    Lemma range_ok gt lt lo hi ir : m <> [] -> exists ir', setRange cmp gt lt lo hi s ir = Some ir' /\ dir ir' = dir ir /\
      rangeSize ir' = len (range_of ltb gt lt lo hi m) /\
      forall go, Range s go ir' = Some (until go [] (if dir ir then rev (range_of ltb gt lt lo hi m) else range_of ltb gt lt lo hi m)).
    Proof.
      intros Hm. set (i := len (low gt lo)). set (j := len (high lt hi) - 1). exists (R (at_pos i) (at_pos j) (dir ir)).
      split; [|split; [reflexivity|]].
      { unfold setRange. replace (if gt then SeekGT cmp lo s else SeekGE cmp lo s) with (Some (at_pos i, found lo)).
        2:{ destruct gt; [rewrite SeekGT_ok|rewrite SeekGE_ok]; auto. }
        replace (if lt then SeekLT cmp hi s else SeekLE cmp hi s) with (Some (at_pos j, found hi)).
        2:{ destruct lt; [rewrite SeekLT_ok|rewrite SeekLE_ok]; auto. }
        reflexivity. }
      pose proof (high_len lt hi) as Hj. pose proof (len_nonneg (low gt lo)) as Hi. pose proof (range_is gt lt lo hi) as HL.
      unfold rangeSize, Range. cbn [siter eiter dir cur idx at_pos].
      destruct (Z.gtb_spec i j) as [Hij|Hij].
      - assert (L0 : range_of ltb gt lt lo hi m = []).
        { rewrite HL. apply skipn_all2. rewrite firstn_length. unfold i, j, len in Hij. lia. }
        rewrite L0. split; [destruct (posId el i), (posId el j); reflexivity|]. intros go. destruct (dir ir); reflexivity.
      - destruct (pos_at i) as (x & kv & E1 & _); [unfold i, j in *; lia|]. destruct (pos_at j) as (y & kv' & F1 & _); [unfold i, j in *; lia|].
        replace (range_of ltb gt lt lo hi m) with (skipn (Z.to_nat i) (firstn (Z.to_nat (j + 1)) num)).
        2:{ rewrite HL. unfold i, j, len. repeat (f_equal; try lia). }
        split.
        + rewrite E1, F1. unfold len. rewrite skipn_length, firstn_length, num_length. unfold i, j, len in *. lia.
        + intros go. assert (Hfu : (Z.to_nat (j - i) < S (length el))%nat).
          { pose proof m_len. unfold i, j, len in *. lia. }
          destruct (dir ir); cbn [negb cur idx].
          * apply (loop_backward go (Z.to_nat (j - i))); unfold i, j in *; lia.
          * apply (loop_forward go (Z.to_nat (j - i))); unfold i, j in *; lia.
    Qed.
  End At.
End Iter.
