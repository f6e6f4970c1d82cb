From Verif Require Import Base Bind Machine DLL DLLSeg LinkedListSpec LinkedListModel.

(** ** neighbours in a list of distinct names *)
Lemma follows_split l : forall a b, follows l a = Some b -> exists l1 l2, l = l1 ++ a :: b :: l2.
Proof.
  induction l as [|x l IH]; intros a b H; [discriminate|]. destruct l as [|y l]; [discriminate|].
  cbn [follows] in H. destruct (Nat.eqb_spec x a) as [->|Hne].
  - injection H as ->. exists [], l. reflexivity.
  - apply IH in H as (l1 & l2 & E). exists (x :: l1), l2. cbn [app]. now rewrite E.
Qed.
Lemma split_follows l1 a b l2 : ~ In a l1 -> follows (l1 ++ a :: b :: l2) a = Some b.
Proof.
  induction l1 as [|x l1 IH]; intros H.
  - cbn. now rewrite Nat.eqb_refl.
  - cbn [app]. destruct (l1 ++ a :: b :: l2) as [|y t] eqn:E; [destruct l1; discriminate|].
    cbn [follows]. destruct (Nat.eqb_spec x a) as [->|Hne]; [exfalso; apply H; left; reflexivity|].
    apply IH. intros Hi. apply H; right; exact Hi.
Qed.

Section P.
  Context {A : Type} (zero : A).
  Notation cell := (nat * A)%type.
  Implicit Types (h : heap A) (L P Q : list cell) (l : llist (A:=A)).

  Lemma map_fst_split L (l1 : list nat) a (l2 : list nat) : map fst L = l1 ++ a :: l2 ->
    exists L1 v L2, L = L1 ++ (a, v) :: L2 /\ map fst L1 = l1 /\ map fst L2 = l2.
  Proof.
    revert L. induction l1 as [|x l1 IH]; intros [|[b w] L] H; try discriminate.
    - injection H as E1 E2. subst b l2. exists [], w, L. auto.
    - injection H as E1 H. subst b. apply IH in H as (L1 & v & L2 & -> & <- & <-). exists ((x, w) :: L1), v, L2. auto.
  Qed.
  Lemma chain_next h p L n a b : chain h p L n -> follows (map fst L) a = Some b -> get_next h (Some a) = Some (Some b).
  Proof.
    intros Hc Hf. apply follows_split in Hf as (l1 & l2 & E). apply map_fst_split in E as (L1 & v & L2 & -> & <- & E2).
    destruct L2 as [|[b' w] L2]; [discriminate|]. injection E2 as -> <-.
    pose proof (chain_node _ _ _ _ _ _ _ Hc) as Ha. unfold get_next. cbn [deref]. rewrite Ha. reflexivity.
  Qed.
  Lemma chain_prev h p L n a b : chain h p L n -> follows (rev (map fst L)) a = Some b ->
    get_prev h (Some a) = Some (Some b).
  Proof.
    intros Hc Hf. apply follows_split in Hf as (l1 & l2 & E).
    assert (E' : map fst L = rev l2 ++ b :: a :: rev l1).
    { rewrite <- (rev_involutive (map fst L)), E, rev_app_distr. cbn [rev]. rewrite <- !app_assoc. reflexivity. }
    apply map_fst_split in E' as (L1 & v & L2 & -> & E1 & E2).
    destruct L2 as [|[a' w] L2]; [discriminate|]. injection E2 as -> E2.
    replace (L1 ++ (b, v) :: (a, w) :: L2) with ((L1 ++ [(b, v)]) ++ (a, w) :: L2) in Hc by (rewrite <- app_assoc; reflexivity).
    pose proof (chain_node _ _ _ _ _ _ _ Hc) as Ha. unfold get_prev. cbn [deref]. rewrite Ha. cbn [nprev].
    now rewrite last_ptr_snoc.
  Qed.

  (** ** editing lists of cells *)
  Lemma live_split L c : existsb (Nat.eqb c) (map fst L) = true -> exists L1 v L2, L = L1 ++ (c, v) :: L2.
  Proof.
    intros H. apply existsb_exists in H as (x & Hin & E). apply Nat.eqb_eq in E. subst x.
    apply in_map_iff in Hin as ([a v] & <- & Hin). apply in_split in Hin as (L1 & L2 & ->). eauto.
  Qed.
  Lemma value_split L c v : value_of L c = Some v -> exists L1 L2, L = L1 ++ (c, v) :: L2.
  Proof.
    unfold value_of. destruct (find _ L) as [[a w]|] eqn:E; [|discriminate]. intros [= ->].
    apply find_some in E as [Hin Ea]. cbn [fst] in Ea. apply Nat.eqb_eq in Ea. subst a.
    apply in_split in Hin as (L1 & L2 & ->). eauto.
  Qed.
  Lemma nodup_mid L1 c v L2 : NoDup (map fst (L1 ++ (c, v) :: L2)) -> ~ In c (map fst L1) /\ ~ In c (map fst L2).
  Proof. rewrite map_app. cbn [map fst]. intros H. apply NoDup_remove_2 in H. rewrite in_app_iff in H. tauto. Qed.
  Lemma drop_absent L c : ~ In c (map fst L) -> drop L c = L.
  Proof.
    induction L as [|[a v] L IH]; intros H; [reflexivity|]. cbn [drop filter fst] in *. cbn [map fst In] in H.
    destruct (Nat.eqb_spec a c); [tauto|]. cbn [negb]. f_equal. apply IH. tauto.
  Qed.
  Lemma drop_split L1 c v L2 : NoDup (map fst (L1 ++ (c, v) :: L2)) -> drop (L1 ++ (c, v) :: L2) c = L1 ++ L2.
  Proof.
    intros H. apply nodup_mid in H as [H1 H2]. unfold drop. rewrite filter_app. cbn [filter fst].
    rewrite Nat.eqb_refl. cbn [negb]. fold (drop L1 c) (drop L2 c). now rewrite !drop_absent.
  Qed.
  Lemma write_absent L c v : ~ In c (map fst L) -> write L c v = L.
  Proof.
    induction L as [|[a w] L IH]; intros H; [reflexivity|]. cbn [write map fst] in *. cbn [In] in H.
    destruct (Nat.eqb_spec a c); [tauto|]. f_equal. apply IH. tauto.
  Qed.
  Lemma write_split L1 c v L2 w : NoDup (map fst (L1 ++ (c, v) :: L2)) ->
    write (L1 ++ (c, v) :: L2) c w = L1 ++ (c, w) :: L2.
  Proof.
    intros H. apply nodup_mid in H as [H1 H2]. unfold write. rewrite map_app. cbn [map fst].
    rewrite Nat.eqb_refl. fold (write L1 c w) (write L2 c w). now rewrite !write_absent.
  Qed.
  Lemma write_names L c v : map fst (write L c v) = map fst L.
  Proof.
    unfold write. rewrite map_map. apply map_ext. intros [a w]. cbn [fst].
    destruct (Nat.eqb_spec a c); cbn [fst]; auto.
  Qed.
  Lemma value_of_split L1 c v L2 : ~ In c (map fst L1) -> value_of (L1 ++ (c, v) :: L2) c = Some v.
  Proof.
    intros H. unfold value_of. induction L1 as [|[a w] L1 IH]; cbn [app find fst].
    - now rewrite Nat.eqb_refl.
    - cbn [map fst In] in H. destruct (Nat.eqb_spec a c); [tauto|]. apply IH. tauto.
  Qed.
  Lemma ins_before_split new m P : forall Q, ~ In m (map fst P) -> (Q = [] \/ exists w Q', Q = (m, w) :: Q') ->
    ins_before new m (P ++ Q) = P ++ new ++ Q.
  Proof.
    induction P as [|[a w] P IH]; intros Q H1 H2; cbn [app].
    - destruct H2 as [->|(w & Q' & ->)]; cbn [ins_before fst]; [now rewrite app_nil_r|]. now rewrite Nat.eqb_refl.
    - cbn [ins_before fst]. cbn [map fst In] in H1. destruct (Nat.eqb_spec a m); [tauto|]. f_equal. apply IH; tauto.
  Qed.
  Lemma ins_after_split new m w P : forall Q, ~ In m (map fst P) ->
    ins_after new m (P ++ (m, w) :: Q) = P ++ (m, w) :: new ++ Q.
  Proof.
    induction P as [|[a x] P IH]; intros Q H1; cbn [app ins_after fst].
    - now rewrite Nat.eqb_refl.
    - cbn [map fst In] in H1. destruct (Nat.eqb_spec a m); [tauto|]. f_equal. apply IH. tauto.
  Qed.

  (** ** the representation *)
  Definition full vh L vt : list cell := (0, vh) :: L ++ [(1, vt)].
  Definition RelL l L (n : nat) : Prop :=
    head l = Some 0 /\ tail l = Some 1 /\ size l = length L /\ length (hp l) = n /\
    exists vh vt, NoDup (map fst (full vh L vt)) /\ chain (hp l) None (full vh L vt) None.
  Definition Rel (s : sys (A:=A)) (t : cstate A) : Prop :=
    RelL (lst s) (cells t) (fresh t) /\ forall i, its s i = Some (cur t i).

  Lemma full_nodup vh L vt : NoDup (map fst (full vh L vt)) -> NoDup (map fst L) /\ ~ In 0 (map fst L) /\ ~ In 1 (map fst L).
  Proof.
    unfold full. cbn [map fst]. rewrite map_app. cbn [map fst]. intros H. apply NoDup_cons_iff in H as [H1 H2].
    pose proof H2 as H3. apply NoDup_remove_2 in H3. rewrite app_nil_r in H3. apply NoDup_app_iff in H2 as (H2 & _).
    rewrite in_app_iff in H1. tauto.
  Qed.
  Lemma names_full (t : cstate A) vh vt : names t = map fst (full vh (cells t) vt).
  Proof. unfold names, full. cbn [map fst]. now rewrite map_app. Qed.

  Lemma get_next_at l L n c c' : RelL l L n -> follows (0 :: map fst L ++ [1]) c = Some c' ->
    get_next (hp l) (Some c) = Some (Some c').
  Proof.
    intros (_ & _ & _ & _ & vh & vt & Hn & Hc) H. eapply chain_next; [exact Hc|].
    unfold full. cbn [map fst]. rewrite map_app. exact H.
  Qed.
  Lemma get_prev_at l L n c c' : RelL l L n -> follows (rev (0 :: map fst L ++ [1])) c = Some c' ->
    get_prev (hp l) (Some c) = Some (Some c').
  Proof.
    intros (_ & _ & _ & _ & vh & vt & Hn & Hc) H. eapply chain_prev; [exact Hc|].
    unfold full. cbn [map fst]. rewrite map_app. exact H.
  Qed.
  Lemma first_ok l L n : RelL l L n -> get_next (hp l) (head l) = Some (Some (hd 1 (map fst L))).
  Proof.
    intros H. pose proof H as (-> & _ & _ & _ & vh & vt & _ & Hc).
    unfold get_next. cbn [deref]. destruct Hc as [-> _]. cbn [nnext]. rewrite hd_ptr_app. destruct L as [|[a v] L]; reflexivity.
  Qed.
  Lemma last_ptr_last L p : last_ptr p L = match L with [] => p | _ => Some (last (map fst L) 0) end.
  Proof.
    destruct L as [|[a v] L _] using rev_ind; [reflexivity|]. rewrite last_ptr_snoc, map_app. cbn [map fst].
    rewrite last_last. destruct (L ++ [(a, v)]) eqn:E; [destruct L; discriminate|reflexivity].
  Qed.
  Lemma last_ok l L n : RelL l L n -> get_prev (hp l) (tail l) = Some (Some (last (map fst L) 0)).
  Proof.
    intros H. pose proof H as (_ & -> & _ & _ & vh & vt & _ & Hc). unfold full in Hc.
    change ((0, vh) :: L ++ [(1, vt)]) with (((0, vh) :: L) ++ [(1, vt)]) in Hc.
    apply chain_app in Hc as [_ Hc]. rewrite (get_prev_one _ _ _ _ _ Hc). f_equal.
    cbn [last_ptr]. rewrite last_ptr_last. destruct L; reflexivity.
  Qed.

  (** splitting the segments of the full chain *)
  Lemma full_split vh P Q vt : full vh (P ++ Q) vt = ((0, vh) :: P) ++ (Q ++ [(1, vt)]).
  Proof. unfold full. cbn [app]. now rewrite <- app_assoc. Qed.

  (** ** insertion of a piece [S] between [P] and [Q] *)
  Lemma link_ok h p P S Q n : P <> [] -> S <> [] -> Q <> [] ->
    NoDup (map fst P) -> NoDup (map fst S) -> NoDup (map fst Q) -> disj P S -> disj P Q -> disj S Q ->
    forall nP pS nS pQ, chain h p P nP -> chain h pS S nS -> chain h pQ Q n ->
    exists h1 h2 h3 h4,
      set_next h (last_ptr None P) (hd_ptr S None) = Some h1 /\
      set_prev h1 (hd_ptr S None) (last_ptr None P) = Some h2 /\
      set_next h2 (last_ptr None S) (hd_ptr Q None) = Some h3 /\
      set_prev h3 (hd_ptr Q None) (last_ptr None S) = Some h4 /\
      length h4 = length h /\ chain h4 p (P ++ S ++ Q) n.
  Proof.
    intros HP HS HQ NP NS NQ D1 D2 D3 nP pS nS pQ CP CS CQ.
    seg_next CP (hd_ptr S None). seg_prev CS (last_ptr None P).
    seg_next CS (hd_ptr Q None). seg_prev CQ (last_ptr None S).
    do 4 eexists. repeat (split; [eassumption|]). split; [congruence|].
    apply chain_app. rewrite (hd_ptr_app S Q). rewrite (hd_ptr_irrel S _ None), (last_ptr_irrel P p None) by assumption.
    split; [assumption|]. apply chain_app.
    rewrite (hd_ptr_irrel Q n None), (last_ptr_irrel S _ None) by assumption. split; assumption.
  Qed.
  (** the same, the four assignments in the order used by MoveBefore, MoveAfter, PushFront *)
  Lemma link_ok2 h p P S Q n : P <> [] -> S <> [] -> Q <> [] ->
    NoDup (map fst P) -> NoDup (map fst S) -> NoDup (map fst Q) -> disj P S -> disj P Q -> disj S Q ->
    forall nP pS nS pQ, chain h p P nP -> chain h pS S nS -> chain h pQ Q n ->
    exists h1 h2 h3 h4,
      set_prev h (hd_ptr Q None) (last_ptr None S) = Some h1 /\
      set_next h1 (last_ptr None S) (hd_ptr Q None) = Some h2 /\
      set_prev h2 (hd_ptr S None) (last_ptr None P) = Some h3 /\
      set_next h3 (last_ptr None P) (hd_ptr S None) = Some h4 /\
      length h4 = length h /\ chain h4 p (P ++ S ++ Q) n.
  Proof.
    intros HP HS HQ NP NS NQ D1 D2 D3 nP pS nS pQ CP CS CQ.
    seg_prev CQ (last_ptr None S). seg_next CS (hd_ptr Q None).
    seg_prev CS (last_ptr None P). seg_next CP (hd_ptr S None).
    do 4 eexists. repeat (split; [eassumption|]). split; [congruence|].
    apply chain_app. rewrite (hd_ptr_app S Q). rewrite (hd_ptr_irrel S _ None), (last_ptr_irrel P p None) by assumption.
    split; [assumption|]. apply chain_app.
    rewrite (hd_ptr_irrel Q n None), (last_ptr_irrel S _ None) by assumption. split; assumption.
  Qed.
  Lemma link_ok3 h p P S Q n : P <> [] -> S <> [] -> Q <> [] ->
    NoDup (map fst P) -> NoDup (map fst S) -> NoDup (map fst Q) -> disj P S -> disj P Q -> disj S Q ->
    forall nP pS nS pQ, chain h p P nP -> chain h pS S nS -> chain h pQ Q n ->
    exists h1 h2 h3 h4,
      set_next h (last_ptr None P) (hd_ptr S None) = Some h1 /\
      set_prev h1 (hd_ptr S None) (last_ptr None P) = Some h2 /\
      set_prev h2 (hd_ptr Q None) (last_ptr None S) = Some h3 /\
      set_next h3 (last_ptr None S) (hd_ptr Q None) = Some h4 /\
      length h4 = length h /\ chain h4 p (P ++ S ++ Q) n.
  Proof.
    intros HP HS HQ NP NS NQ D1 D2 D3 nP pS nS pQ CP CS CQ.
    seg_next CP (hd_ptr S None). seg_prev CS (last_ptr None P).
    seg_prev CQ (last_ptr None S). seg_next CS (hd_ptr Q None).
    do 4 eexists. repeat (split; [eassumption|]). split; [congruence|].
    apply chain_app. rewrite (hd_ptr_app S Q). rewrite (hd_ptr_irrel S _ None), (last_ptr_irrel P p None) by assumption.
    split; [assumption|]. apply chain_app.
    rewrite (hd_ptr_irrel Q n None), (last_ptr_irrel S _ None) by assumption. split; assumption.
  Qed.
  Lemma link_ok4 h p P S Q n : P <> [] -> S <> [] -> Q <> [] ->
    NoDup (map fst P) -> NoDup (map fst S) -> NoDup (map fst Q) -> disj P S -> disj P Q -> disj S Q ->
    forall nP pS nS pQ, chain h p P nP -> chain h pS S nS -> chain h pQ Q n ->
    exists h1 h2 h3 h4,
      set_prev h (hd_ptr Q None) (last_ptr None S) = Some h1 /\
      set_next h1 (last_ptr None S) (hd_ptr Q None) = Some h2 /\
      set_next h2 (last_ptr None P) (hd_ptr S None) = Some h3 /\
      set_prev h3 (hd_ptr S None) (last_ptr None P) = Some h4 /\
      length h4 = length h /\ chain h4 p (P ++ S ++ Q) n.
  Proof.
    intros HP HS HQ NP NS NQ D1 D2 D3 nP pS nS pQ CP CS CQ.
    seg_prev CQ (last_ptr None S). seg_next CS (hd_ptr Q None).
    seg_next CP (hd_ptr S None). seg_prev CS (last_ptr None P).
    do 4 eexists. repeat (split; [eassumption|]). split; [congruence|].
    apply chain_app. rewrite (hd_ptr_app S Q). rewrite (hd_ptr_irrel S _ None), (last_ptr_irrel P p None) by assumption.
    split; [assumption|]. apply chain_app.
    rewrite (hd_ptr_irrel Q n None), (last_ptr_irrel S _ None) by assumption. split; assumption.
  Qed.
  Lemma unlink_ok' h p P a v Q n : P <> [] -> Q <> [] -> NoDup (map fst (P ++ (a, v) :: Q)) ->
    chain h p (P ++ (a, v) :: Q) n ->
    exists h1 h2, get_prev h (Some a) = Some (last_ptr None P) /\ get_next h (Some a) = Some (hd_ptr Q None) /\
      set_next h (last_ptr None P) (hd_ptr Q None) = Some h1 /\
      set_prev h1 (hd_ptr Q None) (last_ptr None P) = Some h2 /\ length h2 = length h /\
      chain h2 p (P ++ Q) n /\ chain h2 (last_ptr p P) [(a, v)] (hd_ptr Q n).
  Proof.
    intros HP HQ Hn Hc. destruct (unlink_ok h p P a v Q n HP HQ Hn Hc) as (h1 & h2 & E1 & E2 & E3 & E4 & C1 & C2).
    exists h1, h2. repeat (split; [assumption|]). split; [|split; assumption].
    assert (Hl : forall (ha hb : heap A) q r, set_next ha q r = Some hb -> length hb = length ha).
    { intros ha hb q r. unfold set_next, store, deref. destruct q as [q|]; [|discriminate].
      destruct (nth_error ha q); [|discriminate]. destruct (q <? length ha); [|discriminate].
      intros [= <-]. apply list_set_length. }
    assert (Hl' : forall (ha hb : heap A) q r, set_prev ha q r = Some hb -> length hb = length ha).
    { intros ha hb q r. unfold set_prev, store, deref. destruct q as [q|]; [|discriminate].
      destruct (nth_error ha q); [|discriminate]. destruct (q <? length ha); [|discriminate].
      intros [= <-]. apply list_set_length. }
    rewrite (Hl' _ _ _ _ E4), (Hl _ _ _ _ E3). reflexivity.
  Qed.
  (** taking the parts of a full chain apart *)
  Lemma nodup3 P S Q : NoDup (map fst (P ++ S ++ Q)) <->
    NoDup (map fst P) /\ NoDup (map fst S) /\ NoDup (map fst Q) /\ disj P S /\ disj P Q /\ disj S Q.
  Proof. rewrite nodup_disj, nodup_disj, disj_app_r. tauto. Qed.

  Lemma snoc1_ne L x : L ++ [x] <> [].
  Proof. destruct L; discriminate. Qed.
  Lemma last_cons vh L : last_ptr None ((0, vh) :: L) = Some (last (map fst L) 0).
  Proof. cbn [last_ptr]. rewrite last_ptr_last. destruct L; reflexivity. Qed.

  (** ** pushing *)
  Definition frame l h : Prop := head l = Some 0 /\ tail l = Some 1.
  Lemma link_back_ok l L v h : RelL (LL h (head l) (tail l) (length L)) L (length h) -> head l = Some 0 -> tail l = Some 1 ->
    exists h', link_back l v h = Some h' /\
      RelL (LL h' (head l) (tail l) (length (L ++ [(length h, v)]))) (L ++ [(length h, v)]) (S (length h)).
  Proof.
    intros (_ & _ & _ & _ & vh & vt & Hn & Hc) Eh Et. cbn [hp] in Hc. unfold link_back. cbn [alloc]. rewrite Et.
    unfold full in Hc, Hn. set (P := (0, vh) :: L) in *. change ((0, vh) :: L ++ [(1, vt)]) with (P ++ [(1, vt)]) in *.
    pose proof (disj_new h _ _ _ v Hc) as Hd. apply disj_app_l in Hd as [Hd1 Hd2].
    apply (chain_alloc _ (mk None None v)) in Hc. apply chain_app in Hc as [CP CT].
    pose proof (seg_new h None None v) as CS.
    apply nodup_disj in Hn as (NP & NT & D).
    rewrite (get_prev_one _ _ _ _ _ CT).
    destruct (link_ok _ None P [(length h, v)] [(1, vt)] None ltac:(discriminate) ltac:(discriminate) ltac:(discriminate)
                NP ltac:(repeat constructor; easy) NT Hd1 D (disj_sym _ _ Hd2) _ _ _ _ CP CS CT)
      as (h1 & h2 & h3 & h4 & E1 & E2 & E3 & E4 & El & Cf).
    cbn [hd_ptr last_ptr] in E1, E2, E3, E4. rewrite E1, E2, E3, E4. eexists; split; [reflexivity|].
    split; [first [assumption|reflexivity]|]. split; [first [assumption|reflexivity]|]. split; [reflexivity|]. cbn [hp]. split.
    { rewrite El, app_length. simpl. lia. }
    exists vh, vt. rewrite full_split. split; [|exact Cf].
    apply nodup3. repeat split; auto using disj_sym. repeat constructor; easy.
  Qed.
  Lemma link_front_ok l L v h : RelL (LL h (head l) (tail l) (length L)) L (length h) -> head l = Some 0 -> tail l = Some 1 ->
    exists h', link_front l v h = Some h' /\
      RelL (LL h' (head l) (tail l) (length ((length h, v) :: L))) ((length h, v) :: L) (S (length h)).
  Proof.
    intros (_ & _ & _ & _ & vh & vt & Hn & Hc) Eh Et. cbn [hp] in Hc. unfold link_front. cbn [alloc]. rewrite Eh.
    unfold full in Hc, Hn. set (Q := L ++ [(1, vt)]) in *. change ((0, vh) :: Q) with ([(0, vh)] ++ Q) in *.
    pose proof (disj_new h _ _ _ v Hc) as Hd. apply disj_app_l in Hd as [Hd1 Hd2].
    apply (chain_alloc _ (mk None None v)) in Hc. apply chain_app in Hc as [CP CQ].
    pose proof (seg_new h None None v) as CS.
    apply nodup_disj in Hn as (NP & NQ & D).
    rewrite (get_next_one _ _ _ _ _ CP).
    destruct (link_ok2 _ None [(0, vh)] [(length h, v)] Q None ltac:(discriminate) ltac:(discriminate) (snoc1_ne _ _)
                NP ltac:(repeat constructor; easy) NQ Hd1 D (disj_sym _ _ Hd2) _ _ _ _ CP CS CQ)
      as (h1 & h2 & h3 & h4 & E1 & E2 & E3 & E4 & El & Cf).
    change (last_ptr None [(length h, v)]) with (Some (length h)) in *.
    change (hd_ptr [(length h, v)] None) with (Some (length h)) in *.
    change (last_ptr None [(0, vh)]) with (Some 0) in *.
    rewrite E1, E2, E3, E4. eexists; split; [reflexivity|].
    split; [first [assumption|reflexivity]|]. split; [first [assumption|reflexivity]|]. split; [reflexivity|]. cbn [hp]. split.
    { rewrite El, app_length. simpl. lia. }
    exists vh, vt. change (full vh ((length h, v) :: L) vt) with ([(0, vh)] ++ [(length h, v)] ++ Q).
    split; [|exact Cf].
    apply nodup3. repeat split; auto using disj_sym. repeat constructor; easy.
  Qed.
  Lemma each_back_ok l vs : head l = Some 0 -> tail l = Some 1 -> forall h L,
    RelL (LL h (head l) (tail l) (length L)) L (length h) ->
    exists h', each (link_back l) vs h = Some h' /\
      let L' := L ++ combine (seq (length h) (length vs)) vs in
      RelL (LL h' (head l) (tail l) (length L')) L' (length h + length vs).
  Proof.
    intros Eh Et. induction vs as [|v vs IH]; intros h L HR; cbn [each length seq combine].
    - eexists; split; [reflexivity|]. cbn zeta. now rewrite app_nil_r, Nat.add_0_r.
    - destruct (link_back_ok l L v h HR Eh Et) as (h1 & -> & HR1).
      assert (El : length h1 = S (length h)) by apply HR1.
      rewrite <- El in HR1. destruct (IH h1 _ HR1) as (h' & -> & HR').
      eexists; split; [reflexivity|]. cbn zeta in *. rewrite El, <- app_assoc in HR'. cbn [app] in HR'.
      replace (length h + S (length vs)) with (S (length h) + length vs) by lia. exact HR'.
  Qed.
  Lemma each_front_ok l vs : head l = Some 0 -> tail l = Some 1 -> forall h L,
    RelL (LL h (head l) (tail l) (length L)) L (length h) ->
    exists h', each (link_front l) vs h = Some h' /\
      let L' := rev (combine (seq (length h) (length vs)) vs) ++ L in
      RelL (LL h' (head l) (tail l) (length L')) L' (length h + length vs).
  Proof.
    intros Eh Et. induction vs as [|v vs IH]; intros h L HR; cbn [each length seq combine].
    - eexists; split; [reflexivity|]. cbn zeta. now rewrite Nat.add_0_r.
    - destruct (link_front_ok l L v h HR Eh Et) as (h1 & -> & HR1).
      assert (El : length h1 = S (length h)) by apply HR1.
      rewrite <- El in HR1. destruct (IH h1 _ HR1) as (h' & -> & HR').
      eexists; split; [reflexivity|]. cbn zeta in *. rewrite El in HR'. cbn [rev]. rewrite <- app_assoc. cbn [app].
      replace (length h + S (length vs)) with (S (length h) + length vs) by lia. exact HR'.
  Qed.
  Lemma RelL_norm l L n : RelL l L n -> RelL (LL (hp l) (head l) (tail l) (length L)) L (length (hp l)).
  Proof. intros (H1 & H2 & H3 & H4 & H5). repeat split; auto. Qed.
  Lemma named_len (s : nat) (vs : list A) : length (combine (seq s (length vs)) vs) = length vs.
  Proof. rewrite combine_length, seq_length. lia. Qed.

  Lemma pushBack_ok l L n vs : RelL l L n -> exists l', pushBack l vs = Some l' /\
    RelL l' (L ++ combine (seq n (length vs)) vs) (n + length vs).
  Proof.
    intros HR. pose proof HR as (Eh & Et & Es & En & _). unfold pushBack.
    destruct (each_back_ok l vs Eh Et (hp l) L (RelL_norm _ _ _ HR)) as (h' & -> & HR'). cbn zeta in HR'.
    eexists; split; [reflexivity|]. rewrite En in HR'. rewrite Es.
    replace (length L + length vs) with (length (L ++ combine (seq n (length vs)) vs)); [exact HR'|].
    now rewrite app_length, named_len.
  Qed.
  Lemma pushFront_ok l L n vs : RelL l L n -> exists l', pushFront l vs = Some l' /\
    RelL l' (rev (combine (seq n (length vs)) vs) ++ L) (n + length vs).
  Proof.
    intros HR. pose proof HR as (Eh & Et & Es & En & _). unfold pushFront.
    destruct (each_front_ok l vs Eh Et (hp l) L (RelL_norm _ _ _ HR)) as (h' & -> & HR'). cbn zeta in HR'.
    eexists; split; [reflexivity|]. rewrite En in HR'. rewrite Es.
    replace (length L + length vs) with (length (rev (combine (seq n (length vs)) vs) ++ L)); [exact HR'|].
    rewrite app_length, rev_length, named_len. lia.
  Qed.
  Lemma push_ok l L n v : RelL l L n -> exists l', push l v = Some l' /\
    RelL l' (L ++ [(n, v)]) (n + 1).
  Proof.
    intros HR. destruct (pushBack_ok l L n [v] HR) as (l' & E & HR'). exists l'. split; [|exact HR'].
    unfold pushBack in E. unfold push. cbn [each length] in E.
    destruct (link_back l v (hp l)); exact E.
  Qed.

  (** ** taking one cell out *)
  Lemma RelL_nodup l L n : RelL l L n -> NoDup (map fst L) /\ ~ In 0 (map fst L) /\ ~ In 1 (map fst L).
  Proof. intros (_ & _ & _ & _ & vh & vt & Hn & _). eapply full_nodup; exact Hn. Qed.
  Lemma popFront_ok l L n : RelL l L n -> exists l', popFront l = Some (l', hd_error (map snd L)) /\ RelL l' (tl L) n.
  Proof.
    intros HR. unfold popFront. pose proof HR as (Eh & Et & Es & En & vh & vt & Hn & Hc).
    destruct L as [|[a v] L].
    - rewrite Es. cbn [length Nat.eqb negb]. eexists; split; [reflexivity|]. exact HR.
    - rewrite Es. cbn [length Nat.eqb negb]. rewrite (first_ok _ _ _ HR). cbn [map fst hd].
      change (full vh ((a, v) :: L) vt) with ([(0, vh)] ++ (a, v) :: (L ++ [(1, vt)])) in Hn, Hc.
      destruct (unlink_ok' (hp l) None [(0, vh)] a v (L ++ [(1, vt)]) None ltac:(discriminate) (snoc1_ne _ _) Hn Hc)
        as (_ & _ & _ & E2 & _). rewrite E2, Eh.
      change ((a, v) :: L ++ [(1, vt)]) with ([(a, v)] ++ (L ++ [(1, vt)])) in Hn, Hc.
      apply nodup3 in Hn as (NP & NS & NQ & D1 & D2 & D3).
      apply chain_app in Hc as [CP Hc]. apply chain_app in Hc as [CS CQ].
      assert (HQ : L ++ [(1, vt)] <> []) by apply snoc1_ne.
      seg_prev CQ (Some 0). rewrite E. seg_next CP (hd_ptr (L ++ [(1, vt)]) None). rewrite E0.
      apply chain_one in CS. cbn [deref]. rewrite CS. cbn [nval].
      eexists; split; [reflexivity|]. split; [first [assumption|reflexivity]|]. split; [first [assumption|reflexivity]|].
      split; [cbn [size tl length]; lia|]. split; [cbn [hp]; congruence|].
      exists vh, vt. cbn [tl hp]. change (full vh L vt) with ([(0, vh)] ++ (L ++ [(1, vt)])). split.
      + apply nodup_disj; auto.
      + apply chain_app. split; [|assumption]. exact CP.
  Qed.
  Lemma popBack_ok l L n : RelL l L n ->
    exists l', popBack l = Some (l', hd_error (rev (map snd L))) /\ RelL l' (removelast L) n.
  Proof.
    intros HR. unfold popBack. pose proof HR as (Eh & Et & Es & En & vh & vt & Hn & Hc).
    destruct L as [|[a v] L _] using rev_ind.
    - rewrite Es. cbn [length Nat.eqb negb]. eexists; split; [reflexivity|]. exact HR.
    - rewrite Es, app_length. cbn [length]. rewrite Nat.add_1_r. cbn [Nat.eqb negb].
      rewrite (last_ok _ _ _ HR). rewrite map_app. cbn [map fst]. rewrite last_last, removelast_last.
      rewrite map_app. cbn [map snd]. rewrite rev_app_distr. cbn [rev app hd_error].
      replace (full vh (L ++ [(a, v)]) vt) with (((0, vh) :: L) ++ (a, v) :: [(1, vt)]) in Hn, Hc
        by (unfold full; cbn [app]; rewrite <- app_assoc; reflexivity).
      destruct (unlink_ok' (hp l) None ((0, vh) :: L) a v [(1, vt)] None ltac:(discriminate) ltac:(discriminate) Hn Hc)
        as (_ & _ & E2 & _). rewrite E2, Et.
      change ((a, v) :: [(1, vt)]) with ([(a, v)] ++ [(1, vt)]) in Hn, Hc.
      apply nodup3 in Hn as (NP & NS & NQ & D1 & D2 & D3).
      apply chain_app in Hc as [CP Hc]. apply chain_app in Hc as [CS CQ].
      set (P := (0, vh) :: L) in *. assert (HP : P <> []) by (unfold P; discriminate).
      seg_next CP (Some 1). rewrite E. seg_prev CQ (last_ptr None P). rewrite E0.
      apply chain_one in CS. cbn [deref]. rewrite CS. cbn [nval].
      eexists; split; [reflexivity|]. split; [first [assumption|reflexivity]|]. split; [first [assumption|reflexivity]|].
      split; [cbn [size]; rewrite ?Es, ?app_length; cbn [length]; lia|]. split; [cbn [hp]; congruence|].
      exists vh, vt. cbn [hp]. change (full vh L vt) with (P ++ [(1, vt)]). split.
      + apply nodup_disj; auto.
      + apply chain_app. split; assumption.
  Qed.
  Lemma clear_ok l L n : RelL l L n -> exists l', clear l = Some l' /\ RelL l' [] n.
  Proof.
    intros (Eh & Et & Es & En & vh & vt & Hn & Hc). unfold clear. rewrite Eh, Et.
    change (full vh L vt) with ([(0, vh)] ++ L ++ [(1, vt)]) in *. apply nodup3 in Hn as (NP & NS & NQ & D1 & D2 & D3).
    apply chain_app in Hc as [CP Hc]. apply chain_app in Hc as [CS CQ]. clear CS D1 D3.
    seg_next CP (Some 1). rewrite E. seg_prev CQ (Some 0). rewrite E0.
    eexists; split; [reflexivity|]. split; [reflexivity|]. split; [reflexivity|]. split; [reflexivity|].
    split; [cbn [hp]; congruence|]. exists vh, vt. cbn [hp]. change (full vh [] vt) with ([(0, vh)] ++ [(1, vt)]).
    split; [apply nodup_disj; auto|apply chain_app; split; assumption].
  Qed.
  Lemma remove_ok l L1 c v L2 n : RelL l (L1 ++ (c, v) :: L2) n ->
    exists h', remove (hp l) (Some c) = Some h' /\
      forall k, k = length (L1 ++ L2) -> RelL (LL h' (head l) (tail l) k) (L1 ++ L2) n.
  Proof.
    intros (Eh & Et & Es & En & vh & vt & Hn & Hc). unfold remove. rewrite full_split in Hn, Hc. cbn [app] in Hn, Hc.
    change ((0, vh) :: L1 ++ (c, v) :: L2 ++ [(1, vt)]) with (((0, vh) :: L1) ++ (c, v) :: (L2 ++ [(1, vt)])) in Hn, Hc.
    destruct (unlink_ok' _ _ _ _ _ _ _ (cons_ne (0, vh) L1) (snoc1_ne L2 (1, vt)) Hn Hc)
      as (h1 & h2 & -> & -> & E3 & E4 & El & C1 & C2). rewrite E3, E4.
    change ((c, v) :: (L2 ++ [(1, vt)])) with ([(c, v)] ++ (L2 ++ [(1, vt)])) in Hn.
    apply nodup3 in Hn as (NP & NS & NQ & D1 & D2 & D3).
    assert (Hn' : NoDup (map fst (((0, vh) :: L1) ++ L2 ++ [(1, vt)]))) by (apply nodup_disj; auto).
    assert (D : disj [(c, v)] (((0, vh) :: L1) ++ L2 ++ [(1, vt)])) by (apply disj_app_r; auto using disj_sym).
    seg_prev C2 (@None nat). rewrite E. seg_next C2 (@None nat). rewrite E0. eexists; split; [reflexivity|].
    intros k ->. repeat (split; [assumption || reflexivity|]). split; [cbn [hp]; congruence|].
    exists vh, vt. rewrite full_split. split; assumption.
  Qed.

  (** ** reading *)
  Lemma size0 l L n : RelL l L n -> size l =? 0 = match L with [] => true | _ => false end.
  Proof. intros (_ & _ & -> & _). destruct L; reflexivity. Qed.
  Lemma node_at l L1 c v L2 n : RelL l (L1 ++ (c, v) :: L2) n -> exists nd, deref (hp l) (Some c) = Some nd /\ nval nd = v.
  Proof.
    intros (_ & _ & _ & _ & vh & vt & _ & Hc). rewrite full_split in Hc. cbn [app] in Hc.
    change ((0, vh) :: L1 ++ (c, v) :: L2 ++ [(1, vt)]) with (((0, vh) :: L1) ++ (c, v) :: (L2 ++ [(1, vt)])) in Hc.
    pose proof (chain_node _ _ _ _ _ _ _ Hc) as Ha. cbn [deref]. rewrite Ha. eexists; split; reflexivity.
  Qed.
  Lemma front_ok l L n : RelL l L n -> front l = Some (hd_error (map snd L)).
  Proof.
    intros HR. unfold front. rewrite (size0 _ _ _ HR). destruct L as [|[a v] L]; [reflexivity|]. cbn [negb].
    rewrite (first_ok _ _ _ HR). destruct (node_at l [] a v L n HR) as (nd & E & <-). cbn [map fst hd]. rewrite E. reflexivity.
  Qed.
  Lemma back_ok l L n : RelL l L n -> back l = Some (hd_error (rev (map snd L))).
  Proof.
    intros HR. unfold back. rewrite (size0 _ _ _ HR). destruct L as [|[a v] L _] using rev_ind; [reflexivity|].
    destruct (L ++ [(a, v)]) eqn:EL; [destruct L; discriminate|]. rewrite <- EL in *. clear EL. cbn [negb].
    rewrite (last_ok _ _ _ HR). destruct (node_at l L a v [] n HR) as (nd & E & <-). rewrite !map_app. cbn [map fst snd].
    rewrite last_last, E, rev_app_distr. reflexivity.
  Qed.
  Lemma walk_fwd_ok h vt L : forall p k, ~ In 1 (map fst L) -> chain h p (L ++ [(1, vt)]) None ->
    walk_fwd h (Some 1) (hd_ptr L (Some 1)) k = Some (nth_error (map snd L) k).
  Proof.
    induction L as [|[a v] L IH]; intros p k Hni Hc.
    - destruct k; reflexivity.
    - cbn [map fst In] in Hni. destruct Hc as [Ha Hc]. rewrite hd_ptr_app in Ha. cbn [hd_ptr] in *.
      destruct k as [|k]; cbn [walk_fwd ptr_eqb]; (destruct (Nat.eqb_spec a 1); [tauto|]); cbn [deref]; rewrite Ha;
        cbn [nnext nval map snd nth_error]; [reflexivity|]. apply (IH (Some a)); tauto.
  Qed.
  Lemma walk_back_ok h vh L : forall p k n, ~ In 0 (map fst L) -> chain h p ((0, vh) :: L) n ->
    walk_back h (Some 0) (last_ptr (Some 0) L) k = Some (nth_error (rev (map snd L)) k).
  Proof.
    induction L as [|[a v] L IH] using rev_ind; intros p k n Hni Hc.
    - destruct k; reflexivity.
    - rewrite map_app in Hni. rewrite in_app_iff in Hni. cbn [map fst In] in Hni.
      change ((0, vh) :: L ++ [(a, v)]) with (((0, vh) :: L) ++ [(a, v)]) in Hc.
      apply chain_app in Hc as [Hc Ha]. apply chain_one in Ha.
      rewrite last_ptr_snoc, map_app, rev_app_distr. cbn [map snd rev app].
      destruct k as [|k]; cbn [walk_back ptr_eqb]; (destruct (Nat.eqb_spec a 0); [tauto|]); cbn [deref]; rewrite Ha;
        cbn [nprev nval nth_error]; [reflexivity|]. cbn [last_ptr]. eapply IH; [tauto|exact Hc].
  Qed.
  Lemma nth_error_rev (l : list A) i : i < length l -> nth_error (rev l) (length l - 1 - i) = nth_error l i.
  Proof.
    intros H. destruct (nth_error l i) as [x|] eqn:E; [|apply nth_error_None in E; lia].
    pose proof (nth_error_nth l i x E) as Hx. rewrite <- Hx at 1.
    rewrite (nth_error_nth' (rev l) x) by (rewrite rev_length; lia). f_equal. rewrite rev_nth by lia.
    replace (length l - S (length l - 1 - i)) with i by lia. now rewrite Hx.
  Qed.
  Lemma index_ok l L n i : RelL l L n -> index l i = Some (at_index (map snd L) i).
  Proof.
    intros HR. unfold index, at_index. destruct (Z.ltb_spec i 0); [reflexivity|].
    pose proof (RelL_nodup _ _ _ HR) as (_ & H0 & H1).
    pose proof HR as (Eh & Et & Es & En & vh & vt & Hn & Hc). rewrite Es.
    destruct (Nat.leb_spec (length L) (Z.to_nat i)) as [Hle|Hlt].
    - replace (nth_error (map snd L) (Z.to_nat i)) with (@None A); [reflexivity|].
      symmetry. apply nth_error_None. rewrite map_length. lia.
    - destruct (_ <? _).
      + rewrite (last_ok _ _ _ HR), Eh.
        replace (Some (last (map fst L) 0)) with (last_ptr (Some 0) L) by (rewrite last_ptr_last; destruct L; reflexivity).
        change (full vh L vt) with (((0, vh) :: L) ++ [(1, vt)]) in Hc. apply chain_app in Hc as [Hc _].
        rewrite (walk_back_ok _ _ _ _ _ _ H0 Hc). f_equal.
        rewrite <- (map_length snd L). apply nth_error_rev. now rewrite map_length.
      + rewrite (first_ok _ _ _ HR), Et.
        replace (Some (hd 1 (map fst L))) with (hd_ptr L (Some 1)) by (destruct L as [|[]]; reflexivity).
        destruct Hc as [_ Hc]. apply (walk_fwd_ok _ _ _ _ _ H1 Hc).
  Qed.
  Lemma traverse_from_ok f h vt L : forall p fuel, ~ In 1 (map fst L) -> length L <= fuel ->
    chain h p (L ++ [(1, vt)]) None ->
    traverse_from f fuel h (hd_ptr L (Some 1)) (Some 1) = Some (shown f (map snd L)).
  Proof.
    induction L as [|[a v] L IH]; intros p fuel Hni Hf Hc.
    - destruct fuel; reflexivity.
    - cbn [map fst In] in Hni. destruct Hc as [Ha Hc]. rewrite hd_ptr_app in Ha. cbn [hd_ptr length] in *.
      destruct fuel as [|fuel]; [lia|]. cbn [traverse_from ptr_eqb]. destruct (Nat.eqb_spec a 1); [tauto|].
      cbn [deref]. rewrite Ha. cbn [nval nnext map snd shown]. destruct (f v); [|reflexivity].
      rewrite (IH (Some a)); [reflexivity|tauto|lia|assumption].
  Qed.
  Lemma nodup_bound (l : list nat) n : NoDup l -> (forall x, In x l -> x < n) -> length l <= n.
  Proof.
    intros H1 H2. rewrite <- (seq_length n 0). apply NoDup_incl_length; [assumption|].
    intros x Hx. apply in_seq. specialize (H2 x Hx). lia.
  Qed.
  Lemma traverse_ok l L n f : RelL l L n -> traverse l f = Some (shown f (map snd L)).
  Proof.
    intros HR. unfold traverse. rewrite (first_ok _ _ _ HR). pose proof (RelL_nodup _ _ _ HR) as (HnL & H0 & H1).
    pose proof HR as (Eh & Et & Es & En & vh & vt & Hn & Hc). rewrite Et.
    replace (Some (hd 1 (map fst L))) with (hd_ptr L (Some 1)) by (destruct L as [|[]]; reflexivity).
    destruct Hc as [_ Hc]. eapply traverse_from_ok; [assumption| |exact Hc].
    rewrite <- (map_length fst L). apply nodup_bound; [assumption|]. intros x Hx.
    apply chain_lt in Hc. rewrite Forall_forall in Hc. apply in_map_iff in Hx as ([a v] & <- & Hin).
    apply (Hc (a, v)). apply in_or_app; auto.
  Qed.
  Lemma shown_all (l : list A) : shown (fun _ => true) l = l.
  Proof. induction l; cbn [shown]; congruence. Qed.

  (** ** the list operations *)
  Lemma step_ok l (t : cstate A) o : RelL l (cells t) (fresh t) ->
    exists l', step l o = Some (l', snd (list_step t o)) /\
      RelL l' (cells (fst (list_step t o))) (fresh (fst (list_step t o))) /\ cur (fst (list_step t o)) = cur t.
  Proof.
    intros HR. destruct o; cbn [step list_step fst snd cells fresh cur add_cells put_cells named ll_spec].
    - destruct (push_ok _ _ _ v HR) as (l' & -> & HR'). eauto.
    - destruct (pushFront_ok _ _ _ vs HR) as (l' & -> & HR'). eauto.
    - destruct (pushBack_ok _ _ _ vs HR) as (l' & -> & HR'). eauto.
    - destruct (popFront_ok _ _ _ HR) as (l' & -> & HR'). eauto.
    - destruct (popBack_ok _ _ _ HR) as (l' & -> & HR'). eauto.
    - rewrite (front_ok _ _ _ HR). eauto.
    - rewrite (back_ok _ _ _ HR). eauto.
    - rewrite (index_ok _ _ _ i HR). eauto.
    - destruct (clear_ok _ _ _ HR) as (l' & -> & HR'). eauto.
    - unfold empty. rewrite (size0 _ _ _ HR). destruct (cells t); eauto.
    - pose proof HR as (_ & _ & -> & _). rewrite map_length. eauto.
    - unfold values. rewrite (traverse_ok _ _ _ _ HR), shown_all. eauto.
    - rewrite (traverse_ok _ _ _ _ HR). eauto.
  Qed.
  Lemma list_step_spec (t : cstate A) o : map snd (cells (fst (list_step t o))) = fst (ll_spec (map snd (cells t)) o) /\
    snd (list_step t o) = snd (ll_spec (map snd (cells t)) o).
  Proof.
    assert (Hnm : forall vs, map snd (named t vs) = vs).
    { intros vs. unfold named. generalize (fresh t). induction vs as [|v vs IH]; intros n; [reflexivity|].
      cbn [length seq combine map snd]. now rewrite IH. }
    destruct o; cbn [list_step fst snd cells ll_spec]; (split; [|reflexivity]);
      cbn [add_cells put_cells cells]; rewrite ?map_app, ?map_rev, ?Hnm; try reflexivity.
    - destruct (cells t); reflexivity.
    - generalize (cells t) as L. intros L. induction L as [|x [|y L] IH]; try reflexivity.
      cbn [removelast map] in *. now rewrite IH.
  Qed.
  Lemma new_ok : exists l, new zero = Some l /\ RelL l [] 2.
  Proof.
    eexists; split; [reflexivity|]. repeat (split; [reflexivity|]). exists zero, zero. split.
    - repeat constructor; simpl; intuition discriminate.
    - simpl. auto.
  Qed.
End P.
