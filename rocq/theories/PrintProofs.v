(** Strings, joining, printing and drawing. *)
From Verif Require Import Base Bind Machine AvlTree AvlSpec PrintSpec PrintModel.
Local Open Scope string_scope.

Lemma sapp_nil s : s ++ "" = s.
Proof. induction s as [|c s IH]; cbn; [reflexivity|]. rewrite IH. reflexivity. Qed.
Lemma sapp_assoc a b c : (a ++ b) ++ c = a ++ b ++ c.
Proof. induction a as [|x a IH]; cbn; [reflexivity|]. rewrite IH. reflexivity. Qed.
Lemma concat_cons sep x y l : String.concat sep (x :: y :: l) = x ++ sep ++ String.concat sep (y :: l).
Proof. reflexivity. Qed.
Lemma concat_app l1 l2 : String.concat "" (l1 ++ l2) = String.concat "" l1 ++ String.concat "" l2.
Proof.
  induction l1 as [|x l1 IH]; [reflexivity|]. destruct l1 as [|y l1].
  - cbn [app]. destruct l2 as [|z l2]; [cbn; rewrite sapp_nil; reflexivity|]. rewrite concat_cons. reflexivity.
  - cbn [app] in *. rewrite !concat_cons, IH. cbn [append]. rewrite sapp_assoc. reflexivity.
Qed.
Lemma concat_one x : String.concat "" [x] = x.
Proof. reflexivity. Qed.

(** ** slices *)
Section Slices.
  Context {A : Type} (show : A -> string).
  Lemma print_elements_rest l : forall i, (0 < i)%nat -> print_elements show i l = join_rest " " (map show l).
  Proof.
    induction l as [|x l IH]; intros i Hi; [reflexivity|]. cbn [print_elements map join_rest].
    replace (Nat.ltb 0 i) with true by (symmetry; apply Nat.ltb_lt; exact Hi). rewrite IH by lia. reflexivity.
  Qed.
  Lemma join_rest_ok sep l : forall x, x ++ join_rest sep l = String.concat sep (x :: l).
  Proof.
    induction l as [|y l IH]; intros x; cbn [join_rest]; [rewrite sapp_nil; reflexivity|]. rewrite concat_cons, <- IH. reflexivity.
  Qed.
  Lemma join_ok sep l : join sep l = String.concat sep l.
  Proof. destruct l as [|x l]; [reflexivity|]. apply join_rest_ok. Qed.
  Lemma print_elements_ok l : print_elements show 0 l = String.concat " " (map show l).
  Proof.
    destruct l as [|x l]; [reflexivity|]. cbn [print_elements map]. rewrite print_elements_rest by lia.
    rewrite <- join_rest_ok. reflexivity.
  Qed.
  Lemma print_slice_ok l : print_slice show l = bracketed " " (map show l).
  Proof. unfold print_slice, bracketed. rewrite print_elements_ok. reflexivity. Qed.
End Slices.

(** ** items without the separator can be told apart *)
Lemma cut_unique c a b x y : avoids c a -> avoids c b -> a ++ String c x = b ++ String c y -> a = b /\ x = y.
Proof.
  revert b. induction a as [|p a IH]; intros [|q b] Ha Hb H; cbn in *.
  - injection H as ->. auto.
  - injection H as -> _. tauto.
  - injection H as -> _. tauto.
  - injection H as -> H. destruct (IH b) as (-> & ->); tauto.
Qed.
Lemma avoids_app c a x : ~ avoids c (a ++ String c x).
Proof. induction a as [|p a IH]; cbn; tauto. Qed.
Lemma concat_inj c : forall l l', Forall (fun s => avoids c s /\ s <> "") l -> Forall (fun s => avoids c s /\ s <> "") l' ->
  String.concat (String c "") l = String.concat (String c "") l' -> l = l'.
Proof.
  assert (one : forall x y l, avoids c x -> x <> String.concat (String c "") (y :: (l : list string)) \/ l = []).
  { intros x y [|z l] Hx; [auto|]. left. intros ->. rewrite concat_cons in Hx. apply (avoids_app c y _ Hx). }
  assert (nonempty : forall x (l : list string), x <> "" -> String.concat (String c "") (x :: l) <> "").
  { intros x [|y l] Hx; [exact Hx|]. rewrite concat_cons. destruct x; [congruence|discriminate]. }
  induction l as [|x l IH]; intros [|y l'] H1 H2 H; [reflexivity| | |].
  - inversion_clear H2. symmetry in H. destruct (nonempty y l') in H; tauto.
  - inversion_clear H1. destruct (nonempty x l) in H; tauto.
  - inversion_clear H1 as [|? ? (Hx & Nx) Hl]. inversion_clear H2 as [|? ? (Hy & Ny) Hl'].
    destruct l as [|x2 l], l' as [|y2 l'].
    + cbn in H. congruence.
    + destruct (one x y (y2 :: l') Hx) as [N|N]; [destruct (N H)|discriminate].
    + symmetry in H. destruct (one y x (x2 :: l) Hy) as [N|N]; [destruct (N H)|discriminate].
    + rewrite !concat_cons in H. cbn [append] in H. destruct (cut_unique c x y _ _ Hx Hy H) as (-> & H').
      rewrite (IH _ Hl Hl' H'). reflexivity.
Qed.
Lemma bracketed_inj c l l' : Forall (fun s => avoids c s /\ s <> "") l -> Forall (fun s => avoids c s /\ s <> "") l' ->
  bracketed (String c "") l = bracketed (String c "") l' -> l = l'.
Proof.
  intros H1 H2 H. apply (concat_inj c l l' H1 H2). unfold bracketed in H. cbn [append] in H. injection H as H. revert H.
  generalize (String.concat (String c "") l) (String.concat (String c "") l'). induction s as [|a s IH]; intros [|b s'] H; cbn in H.
  - reflexivity.
  - injection H as _ H. destruct s'; discriminate H.
  - injection H as _ H. destruct s; discriminate H.
  - injection H as -> H. rewrite (IH _ H). reflexivity.
Qed.

(** ** the tree set *)
Section TreeSet.
  Context {K V : Type} (showv : V -> string).
  Lemma str_ok (t : tree K V) : forall content,
    str showv t content = content ++ String.concat "" (map (fun e => showv (snd e) ++ " ") (elems t)).
  Proof.
    induction t as [|h k v l IHl r IHr]; intros content; cbn [str elems map]; [cbn; rewrite sapp_nil; reflexivity|].
    rewrite IHr, IHl, map_app, concat_app. cbn [map snd].
    match goal with |- context [String.concat "" (?a :: ?x)] => change (a :: x)%list with ([a] ++ x)%list end.
    rewrite concat_app, concat_one, !sapp_assoc. reflexivity.
  Qed.
  Lemma close_blank s : close (s ++ " ") = Some (s ++ "]").
  Proof.
    induction s as [|c s IH]; [reflexivity|]. cbn [append close]. rewrite IH. destruct (s ++ " ") eqn:E1; [destruct s; discriminate E1|].
    reflexivity.
  Qed.
  Lemma blanks_concat x (l : list string) :
    String.concat "" (map (fun s => s ++ " ") (x :: l)) = String.concat " " (x :: l) ++ " ".
  Proof.
    revert x. induction l as [|y l IH]; intros x; [reflexivity|]. rewrite concat_cons.
    change (map (fun s => s ++ " ") (x :: y :: l)) with (app [(x ++ " ")%string] (map (fun s => s ++ " ") (y :: l))).
    rewrite concat_app, concat_one, IH, !sapp_assoc. reflexivity.
  Qed.
  Lemma string_treeset_ok (t : tree K V) : close (str showv t "[") = Some (bracketed " " (map showv (map snd (elems t)))).
  Proof.
    rewrite str_ok. replace (map (fun e => showv (snd e) ++ " ") (elems t)) with (map (fun s => s ++ " ") (map showv (map snd (elems t))))
      by (rewrite !map_map; reflexivity).
    destruct (map showv (map snd (elems t))) as [|x l]; [reflexivity|]. rewrite blanks_concat, <- sapp_assoc, close_blank.
    unfold bracketed. rewrite sapp_assoc. reflexivity.
  Qed.
End TreeSet.

(** ** drawings *)
Section Drawing.
  Context {K V : Type} (showk : K -> string).
  Definition shows (e : K * nat) (line : string) : Prop := drawn cells marks (showk (fst e)) (snd e) line.
  Lemma levels_deeper (t : tree K V) : forall d, levels (S d) t = map (fun e => (fst e, S (snd e))) (levels d t).
  Proof.
    induction t as [|h k v l IHl r IHr]; intros d; [reflexivity|]. cbn [levels]. rewrite IHl, IHr, !map_app. reflexivity.
  Qed.
  Lemma shows_deeper cell es lines : In cell cells -> Forall2 shows es lines ->
    Forall2 shows (map (fun e => (fst e, S (snd e))) es) (map (fun line => cell ++ line) lines).
  Proof. intros Hc. induction 1; cbn [map]; constructor; [apply drawn_right; assumption|assumption]. Qed.
  Lemma output_ok (t : tree K V) : forall prefix b text, exists lines,
    Forall2 shows (levels 0 t) lines /\
    outputfordebugNoSuffix showk t prefix b text = text ++ String.concat "" (map (fun line => prefix ++ line) lines).
  Proof.
    induction t as [|h k v l IHl r IHr]; intros prefix b text; [exists []; split; [constructor|cbn; rewrite sapp_nil; reflexivity]|].
    cbn [levels]. rewrite !levels_deeper.
    set (cr := if b then esc ("[34m│   " ++ esc "[0m") else "    "). set (cl := if b then "    " else esc ("[31m│   " ++ esc "[0m")).
    set (mark := if b then esc ("[34m└── " ++ esc "[0m") else esc ("[31m┌── " ++ esc "[0m")).
    assert (Hr : In cr cells) by (subst cr; destruct b; cbn; auto). assert (Hl : In cl cells) by (subst cl; destruct b; cbn; auto).
    assert (Hm : In mark marks) by (subst mark; destruct b; cbn; auto).
    destruct (IHr (prefix ++ cr) false text) as (rl & R1 & R2).
    set (text1 := match r with E => text | _ => outputfordebugNoSuffix showk r (prefix ++ cr) false text end).
    assert (T1 : text1 = text ++ String.concat "" (map (fun line => (prefix ++ cr) ++ line) rl)).
    { subst text1. destruct r; [|exact R2]. inversion R1. cbn. rewrite sapp_nil. reflexivity. }
    set (text2 := ((text1 ++ prefix) ++ mark) ++ showk k ++ newline).
    destruct (IHl (prefix ++ cl) true text2) as (ll & L1 & L2).
    exists (map (fun line => (cr ++ line)%string) rl ++ [(mark ++ showk k ++ newline)%string] ++ map (fun line => (cl ++ line)%string) ll)%list. split.
    - apply Forall2_app; [apply shows_deeper; assumption|]. apply Forall2_app; [|apply shows_deeper; assumption].
      constructor; [|constructor]. apply drawn_here. exact Hm.
    - assert (F : outputfordebugNoSuffix showk (N h k v l r) prefix b text =
        match l with E => text2 | _ => outputfordebugNoSuffix showk l (prefix ++ cl) true text2 end) by reflexivity.
      rewrite F. clear F.
      assert (T2 : match l with E => text2 | _ => outputfordebugNoSuffix showk l (prefix ++ cl) true text2 end =
        text2 ++ String.concat "" (map (fun line => (prefix ++ cl) ++ line) ll)).
      { destruct l; [|exact L2]. inversion L1. cbn. rewrite sapp_nil. reflexivity. }
      rewrite T2. subst text2. rewrite T1, !map_app, !concat_app. cbn [map]. rewrite concat_one, !map_map.
      assert (X : forall c lines, map (fun line => (prefix ++ c) ++ line) lines = map (fun line => prefix ++ (c ++ line)) lines)
        by (intros c lines; apply map_ext; intros line; apply sapp_assoc).
      rewrite !X, !sapp_assoc. reflexivity.
  Qed.
  Lemma levels_keys (t : tree K V) : forall d, map fst (levels d t) = rev (map fst (elems t)).
  Proof.
    induction t as [|h k v l IHl r IHr]; intros d; [reflexivity|]. cbn [levels elems]. rewrite !map_app, IHl, IHr. cbn [map fst].
    rewrite rev_app_distr. cbn [rev]. rewrite <- app_assoc. reflexivity.
  Qed.
End Drawing.

(** ** one more call *)
Lemma run_snoc {S T O R} (step : S -> O -> option (S * R)) (spec : T -> O -> T * R) o : forall ops s t,
  run step s (ops ++ [o]) = Some (srun spec t (ops ++ [o])) ->
  exists s' s'', reach step s ops = Some s' /\ step s' o = Some (s'', snd (spec (sreach spec t ops) o)).
Proof.
  induction ops as [|p ops IH]; intros s t H; cbn [app run srun reach sreach] in *.
  - destruct (step s o) as [[s' r]|] eqn:E1; [|discriminate]. destruct (spec t o) as [t' r']. injection H as ->. eauto.
  - destruct (step s p) as [[s' r]|]; [|discriminate]. destruct (spec t p) as [t' r']. cbn [fst].
    destruct (run step s' (ops ++ [o])) as [rs|] eqn:E1; [|discriminate]. injection H as -> H. apply IH. rewrite E1, H. reflexivity.
Qed.
