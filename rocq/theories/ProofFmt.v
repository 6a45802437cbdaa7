(** The printer of [Debug] texts: what it writes can be read back in one way. *)
From Coq Require Import HexadecimalString.
From Verif Require Import Base ModelUtil ModelBitField ModelCharReach ModelParser ModelDump ModelDebug ModelFmt SpecGrammar SpecText SpecDebug SpecFmt
  ProofBase ProofText PropDebug PropReference.
Local Open Scope N_scope.
Local Open Scope list_scope.

(** ** Induction *)
Section DvInd.
  Context (P : dv -> Prop).
  Context (Hw : forall w, P (DWord w)) (Ht : forall s, P (DText s)) (Hs : forall n fs, Forall (fun f => P (snd f)) fs -> P (DStruct n fs))
          (Hp : forall n l, Forall P l -> P (DTuple n l)) (Hl : forall l, Forall P l -> P (DList l)).
  Fixpoint dv_ind' (d : dv) : P d :=
    match d with
    | DWord w => Hw w
    | DText s => Ht s
    | DStruct n fs => Hs n fs ((fix go (l : list (str * dv)) : Forall (fun f => P (snd f)) l :=
        match l with [] => Forall_nil _ | f :: t => Forall_cons f (dv_ind' (snd f)) (go t) end) fs)
    | DTuple n l => Hp n l ((fix go (l : list dv) : Forall P l := match l with [] => Forall_nil _ | v :: t => Forall_cons v (dv_ind' v) (go t) end) l)
    | DList l => Hl l ((fix go (l : list dv) : Forall P l := match l with [] => Forall_nil _ | v :: t => Forall_cons v (dv_ind' v) (go t) end) l)
    end.
End DvInd.
Section CompInd.
  Context (P : component -> Prop) (Q : seqn -> Prop).
  Context (Ha : forall bs, Forall Q bs -> P (CAlternation bs)) (Hk : forall k, P (CClass k)) (Hs : forall s, Q s -> P (CSequence s))
          (Hq : forall ch alt ci cn, Forall P ch -> (forall bs, alt = Some bs -> Forall Q bs) -> Q (Seqn ch alt ci cn)).
  Fixpoint comp_all (c : component) : P c :=
    match c with
    | CAlternation bs => Ha bs ((fix go (l : list seqn) : Forall Q l := match l with [] => Forall_nil _ | s :: t => Forall_cons s (seqn_all s) (go t) end) bs)
    | CClass k => Hk k
    | CSequence s => Hs s (seqn_all s)
    end
  with seqn_all (s : seqn) : Q s :=
    match s with
    | Seqn ch alt ci cn => Hq ch alt ci cn
        ((fix go (l : list component) : Forall P l := match l with [] => Forall_nil _ | c :: t => Forall_cons c (comp_all c) (go t) end) ch)
        (match alt as a return (forall bs, a = Some bs -> Forall Q bs) with
         | None => fun bs E => match E in _ = o return match o with None => True | Some bs => Forall Q bs end with eq_refl => I end
         | Some l => fun bs E => match E in _ = o return match o with None => True | Some bs => Forall Q bs end with eq_refl =>
             (fix go (l : list seqn) : Forall Q l := match l with [] => Forall_nil _ | s :: t => Forall_cons s (seqn_all s) (go t) end) l end
         end)
    end.
End CompInd.

Ltac ands := repeat match goal with H : _ && _ = true |- _ => apply andb_prop in H; destruct H end.
(** ** Names *)
Definition name_char (c : N) : bool := ((48 <=? c) && (c <=? 57)) || ((65 <=? c) && (c <=? 90)) || ((97 <=? c) && (c <=? 122)) || (c =? 95).
Definition name (w : str) : bool := match w with [] => false | _ => forallb name_char w end.
Fixpoint fine_dv (d : dv) : bool :=
  match d with
  | DWord w => name w
  | DText _ => true
  | DStruct n fs => name n && negb (match fs with [] => true | _ => false end) && forallb (fun f => name (fst f) && fine_dv (snd f)) fs
  | DTuple n l => name n && negb (match l with [] => true | _ => false end) && forallb (fun v => fine_dv v) l
  | DList l => forallb (fun v => fine_dv v) l
  end.
(** What may follow a value, and a name. *)
Definition stop (r : str) : Prop := match r with [] => True | c :: u => c = 44 \/ c = 41 \/ c = 93 \/ (c = 32 /\ exists v, u = 125 :: v) end.
Definition no_name (r : str) : Prop := match r with [] => True | c :: _ => name_char c = false end.
Lemma stop_no_name : forall r, stop r -> no_name r.
Proof. intros [|c u] H; [exact I|]. cbn in *. destruct H as [->|[->|[->|[-> _]]]]; reflexivity. Qed.
Lemma name_split : forall w w' a a', name w = true -> name w' = true -> no_name a -> no_name a' -> w ++ a = w' ++ a' -> w = w' /\ a = a'.
Proof.
  assert (X : forall w w' a a', forallb name_char w = true -> forallb name_char w' = true -> no_name a -> no_name a' -> w ++ a = w' ++ a' -> w = w' /\ a = a').
  { induction w as [|c w IH]; intros [|c' w'] a a' H H' N N' E; cbn in *.
    - auto.
    - subst a. cbn in N. rewrite N in H'. discriminate H'.
    - subst a'. cbn in N'. rewrite N' in H. discriminate H.
    - injection E as -> E. apply andb_prop in H, H'. destruct H, H'. destruct (IH w' a a') as [-> ->]; auto. }
  intros w w' a a' H H'. apply X; unfold name in *; [destruct w|destruct w']; try discriminate; assumption.
Qed.
Lemma name_head : forall w, name w = true -> exists c u, w = c :: u /\ name_char c = true.
Proof. intros [|c u] H; [discriminate|]. exists c, u. split; [reflexivity|]. cbn in H. apply andb_prop in H. apply H. Qed.

(** ** Texts on one line *)
Inductive spelt : dv -> str -> Prop :=
| spelt_word : forall w, spelt (DWord w) w
| spelt_text : forall s t, literal t s -> spelt (DText s) t
| spelt_struct : forall n fs t, listed spelt_entry fs t -> spelt (DStruct n fs) (n ++ lit " { " ++ t ++ lit " }")
| spelt_tuple : forall n l t, listed spelt l t -> spelt (DTuple n l) (n ++ lit "(" ++ t ++ lit ")")
| spelt_list : forall l t, listed spelt l t -> spelt (DList l) (lit "[" ++ t ++ lit "]")
with spelt_entry : str * dv -> str -> Prop :=
| spelt_field : forall f v t, spelt v t -> spelt_entry (f, v) (f ++ lit ": " ++ t).
(** A relation whose texts can be told apart from what follows. *)
Definition told {A} (R : A -> str -> Prop) (ok : A -> bool) (a : A) : Prop := forall t a' t' r r',
  ok a' = true -> R a t -> R a' t' -> stop r -> stop r' -> t ++ r = t' ++ r' -> a = a' /\ t = t' /\ r = r'.
Definition opens_well {A} (R : A -> str -> Prop) (ok : A -> bool) : Prop := forall a t, ok a = true -> R a t -> exists c u, t = c :: u /\ c <> 93.
Definition closing (z : str) : Prop := z = lit "]" \/ z = lit ")" \/ z = lit " }".
Lemma closing_stop : forall z r, closing z -> stop (z ++ r).
Proof. intros z r [->|[->| ->]]; vm_compute; [right; right; left; reflexivity|right; left; reflexivity|right; right; right; split; [reflexivity|eexists; reflexivity]]. Qed.
Lemma comma_stop : forall r, stop (lit ", " ++ r).
Proof. intro r. vm_compute. left. reflexivity. Qed.
Lemma closing_head : forall z r u, closing z -> z ++ r = lit ", " ++ u -> False.
Proof. intros z r u [->|[->| ->]] E; vm_compute in E; discriminate E. Qed.
Lemma listed_cons : forall {A} (R : A -> str -> Prop) z r a l t, closing z -> listed R (a :: l) t ->
  exists u v, R a u /\ stop (v ++ z ++ r) /\ t = u ++ v /\ ((l = [] /\ v = []) \/ (exists w, v = lit ", " ++ w /\ listed R l w /\ l <> [])).
Proof.
  intros A R z r a l t Z L. remember (a :: l) as k eqn:K. destruct L as [|b t Rb|b c k t u Rb Lk]; [discriminate K|injection K as -> <-|injection K as -> <-].
  - exists t, []. rewrite app_nil_r. split; [exact Rb|]. split; [apply (closing_stop z); exact Z|]. auto.
  - exists t, (lit ", " ++ u). split; [exact Rb|]. split; [rewrite <- app_assoc; apply comma_stop|]. split; [reflexivity|]. right. exists u. split; [reflexivity|]. split; [exact Lk|discriminate].
Qed.
Lemma listed_told : forall {A} (R : A -> str -> Prop) ok z l l' t t' r r',
  Forall (told R ok) l -> forallb ok l' = true -> closing z -> listed R l t -> listed R l' t' -> l <> [] -> l' <> [] ->
  t ++ z ++ r = t' ++ z ++ r' -> l = l' /\ t = t' /\ r = r'.
Proof.
  intros A R ok z l. induction l as [|a l IH]; intros l' t t' r r' F O Z L L' Ne Ne' E; [contradiction|]. destruct l' as [|a' l']; [contradiction|].
  inversion F as [|? ? Ta Fl]; subst. cbn [forallb] in O. apply andb_prop in O. destruct O as [Oa Ol].
  destruct (listed_cons R z r _ _ _ Z L) as (u & v & Ra & Sv & -> & C). destruct (listed_cons R z r' _ _ _ Z L') as (u' & v' & Ra' & Sv' & -> & C'). rewrite <- !app_assoc in E.
  destruct (Ta u a' u' _ _ Oa Ra Ra' Sv Sv' E) as (-> & -> & E').
  destruct C as [[-> ->]|(w & -> & Lw & Nl)], C' as [[-> ->]|(w' & -> & Lw' & Nl')].
  - cbn [app] in E'. apply app_inv_head in E'. auto.
  - exfalso. cbn [app] in E'. rewrite <- app_assoc in E'. eapply closing_head; [exact Z|exact E'].
  - exfalso. cbn [app] in E'. rewrite <- app_assoc in E'. eapply closing_head; [exact Z|symmetry; exact E'].
  - rewrite <- !app_assoc in E'. apply app_inv_head in E'. destruct (IH l' w w' r r' Fl Ol Z Lw Lw' Nl Nl' E') as (-> & -> & ->). auto.
Qed.
Lemma listed_nil_inv : forall {A} (R : A -> str -> Prop) t, listed R [] t -> t = [].
Proof. intros A R t H. inversion H. reflexivity. Qed.
Lemma listed_head : forall {A} (R : A -> str -> Prop) ok l t, opens_well R ok -> forallb ok l = true -> listed R l t -> l <> [] -> exists c u, t = c :: u /\ c <> 93.
Proof.
  intros A R ok l t W O L Ne. inversion L; subst; [contradiction|..]; cbn [forallb] in O; apply andb_prop in O; destruct O as [O _].
  - eapply W; eassumption.
  - destruct (W _ _ O H) as (c & w & -> & Hc). exists c. eexists. split; [reflexivity|exact Hc].
Qed.
Lemma spelt_opens : opens_well spelt fine_dv.
Proof.
  assert (N : forall n r, name n = true -> exists c u, n ++ r = c :: u /\ c <> 93).
  { intros n r H. destruct (name_head n H) as (c & u & -> & Hc). exists c. eexists. split; [reflexivity|]. intros ->. discriminate Hc. }
  intros d t F Hs. inversion Hs; subst; cbn [fine_dv] in F.
  - rewrite <- (app_nil_r t). apply N. exact F.
  - destruct H as (b & _ & ->). exists 34. eexists. split; [reflexivity|discriminate].
  - ands. apply N. assumption.
  - ands. apply N. assumption.
  - exists 91. eexists. split; [reflexivity|discriminate].
Qed.
Lemma entry_told : forall f v, name f = true -> told spelt fine_dv v -> told spelt_entry (fun e => name (fst e) && fine_dv (snd e)) (f, v).
Proof.
  intros f v Nf T t [f' v'] t' r r' O R R' S1 S2 E. inversion R as [? ? u Ru]; subst. inversion R' as [? ? u' Ru']; subst. cbn [fst snd] in O. apply andb_prop in O. destruct O as [O1 O2]. rewrite <- !app_assoc in E.
  destruct (name_split f f' _ _ Nf O1 (eq_refl : no_name (lit ": " ++ _)) (eq_refl : no_name (lit ": " ++ _)) E) as [-> E2]. apply app_inv_head in E2.
  destruct (T _ _ _ _ _ O2 Ru Ru' S1 S2 E2) as (-> & -> & ->). auto.
Qed.
(** What comes first in a value after its name. *)
Lemma spelt_split : forall d t, fine_dv d = true -> spelt d t ->
  (exists w, d = DWord w /\ t = w /\ name w = true) \/
  (exists s, d = DText s /\ literal t s) \/
  (exists n fs u, d = DStruct n fs /\ name n = true /\ fs <> [] /\ forallb (fun e => name (fst e) && fine_dv (snd e)) fs = true /\ listed spelt_entry fs u /\ t = n ++ lit " { " ++ u ++ lit " }") \/
  (exists n l u, d = DTuple n l /\ name n = true /\ l <> [] /\ forallb fine_dv l = true /\ listed spelt l u /\ t = n ++ lit "(" ++ u ++ lit ")") \/
  (exists l u, d = DList l /\ forallb fine_dv l = true /\ listed spelt l u /\ t = lit "[" ++ u ++ lit "]").
Proof.
  intros d t F H. inversion H; subst; cbn [fine_dv] in F.
  - left. eauto.
  - right. left. eauto.
  - right. right. left. exists n, fs, t0. apply andb_prop in F. destruct F as [F1 F2]. apply andb_prop in F1. destruct F1 as [F0 F1]. conjs; auto. intros ->. discriminate F1.
  - right. right. right. left. exists n, l, t0. apply andb_prop in F. destruct F as [F1 F2]. apply andb_prop in F1. destruct F1 as [F0 F1]. conjs; auto. intros ->. discriminate F1.
  - right. right. right. right. exists l, t0. auto.
Qed.
Lemma name_not : forall n c r r', name n = true -> name_char c = false -> n ++ r = c :: r' -> False.
Proof. intros n c r r' H Hc E. destruct (name_head n H) as (x & u & -> & Hx). injection E as -> _. congruence. Qed.
Lemma stop_not_open : forall r u, stop r -> r = lit "(" ++ u -> False.
Proof. intros r u H ->. vm_compute in H. destruct H as [H|[H|[H|[H _]]]]; discriminate H. Qed.
Lemma stop_not_brace : forall r u, stop r -> r = lit " { " ++ u -> False.
Proof. intros r u H ->. change (lit " { " ++ u) with (32 :: 123 :: 32 :: u) in H. destruct H as [H|[H|[H|[_ [v H]]]]]; discriminate H. Qed.
Lemma spelt_told : forall d, fine_dv d = true -> told spelt fine_dv d.
Proof.
  assert (Q : forall r, no_name (lit " { " ++ r)) by (intro r; reflexivity). assert (B : forall r, no_name (lit "(" ++ r)) by (intro r; reflexivity).
  apply (dv_ind' (fun d => fine_dv d = true -> told spelt fine_dv d)).
  - intros w F t d' t' r r' O R R' S1 S2 E. inversion R; subst. cbn [fine_dv] in F. pose proof (stop_no_name _ S1) as N1. pose proof (stop_no_name _ S2) as N2.
    destruct (spelt_split _ _ O R') as [(w' & -> & -> & Nw)|[(s & -> & (b & _ & ->))|[(n & fs & u & -> & Nn & _ & _ & _ & ->)|[(n & l & u & -> & Nn & _ & _ & _ & ->)|(l & u & -> & _ & _ & ->)]]]].
    + destruct (name_split _ _ _ _ F Nw N1 N2 E) as [-> ->]. auto.
    + exfalso. exact (name_not _ 34 _ _ F eq_refl E).
    + exfalso. rewrite <- !app_assoc in E. destruct (name_split _ _ _ _ F Nn N1 (Q _) E) as [_ E2]. exact (stop_not_brace _ _ S1 E2).
    + exfalso. rewrite <- !app_assoc in E. destruct (name_split _ _ _ _ F Nn N1 (B _) E) as [_ E2]. exact (stop_not_open _ _ S1 E2).
    + exfalso. exact (name_not _ 91 _ _ F eq_refl E).
  - intros s F t d' t' r r' O R R' S1 S2 E. inversion R as [|? ? H0| | |]; subst.
    destruct (spelt_split _ _ O R') as [(w' & -> & -> & Nw)|[(s' & -> & L')|[(n & fs & u & -> & Nn & _ & _ & _ & ->)|[(n & l & u & -> & Nn & _ & _ & _ & ->)|(l & u & -> & _ & _ & ->)]]]].
    + exfalso. destruct H0 as (b & _ & ->). symmetry in E. exact (name_not _ 34 _ _ Nw eq_refl E).
    + destruct (proj2 C81_literal _ _ _ _ _ _ H0 L' E) as [-> ->]. apply app_inv_head in E. auto.
    + exfalso. destruct H0 as (b & _ & ->). rewrite <- app_assoc in E. symmetry in E. exact (name_not _ 34 _ _ Nn eq_refl E).
    + exfalso. destruct H0 as (b & _ & ->). rewrite <- app_assoc in E. symmetry in E. exact (name_not _ 34 _ _ Nn eq_refl E).
    + exfalso. destruct H0 as (b & _ & ->). discriminate E.
  - intros n fs IH F t d' t' r r' O R R' S1 S2 E. destruct (spelt_split _ _ F R) as [(? & D & _)|[(? & D & _)|[(n1 & fs1 & u1 & D & Nn1 & Ne1 & F1 & L1 & T1)|[(? & ? & ? & D & _)|(? & ? & D & _)]]]]; try discriminate D.
    injection D as <- <-. subst t. pose proof (stop_no_name _ S1) as N1. pose proof (stop_no_name _ S2) as N2. rewrite <- !app_assoc in E.
    destruct (spelt_split _ _ O R') as [(w' & -> & -> & Nw)|[(s' & -> & (b & _ & ->))|[(n' & fs' & u' & -> & Nn & Ne & F' & L' & ->)|[(n' & l & u' & -> & Nn & _ & _ & _ & ->)|(l & u' & -> & _ & _ & ->)]]]].
    + exfalso. destruct (name_split _ _ _ _ Nn1 Nw (Q _) N2 E) as [_ E2]. exact (stop_not_brace _ _ S2 (eq_sym E2)).
    + exfalso. exact (name_not _ 34 _ _ Nn1 eq_refl E).
    + rewrite <- !app_assoc in E. destruct (name_split _ _ _ _ Nn1 Nn (Q _) (Q _) E) as [-> E2]. apply app_inv_head in E2.
      assert (T : Forall (told spelt_entry (fun e => name (fst e) && fine_dv (snd e))) fs).
      { rewrite Forall_forall in *. intros [f v] I. rewrite forallb_forall in F1. specialize (F1 _ I). cbn [fst snd] in F1. apply andb_prop in F1. destruct F1 as [Fa Fb]. apply entry_told; [exact Fa|]. exact (IH (f, v) I Fb). }
      destruct (listed_told spelt_entry (fun e => name (fst e) && fine_dv (snd e)) (lit " }") fs fs' u1 u' r r' T F' (or_intror (or_intror eq_refl)) L1 L' Ne1 Ne E2) as (-> & -> & ->). auto.
    + exfalso. rewrite <- !app_assoc in E. destruct (name_split _ _ _ _ Nn1 Nn (Q _) (B _) E) as [_ E2]. discriminate E2.
    + exfalso. exact (name_not _ 91 _ _ Nn1 eq_refl E).
  - intros n l IH F t d' t' r r' O R R' S1 S2 E. destruct (spelt_split _ _ F R) as [(? & D & _)|[(? & D & _)|[(? & ? & ? & D & _)|[(n1 & l1 & u1 & D & Nn1 & Ne1 & F1 & L1 & T1)|(? & ? & D & _)]]]]; try discriminate D.
    injection D as <- <-. subst t. pose proof (stop_no_name _ S1) as N1. pose proof (stop_no_name _ S2) as N2. rewrite <- !app_assoc in E.
    destruct (spelt_split _ _ O R') as [(w' & -> & -> & Nw)|[(s' & -> & (b & _ & ->))|[(n' & fs' & u' & -> & Nn & Ne & F' & L' & ->)|[(n' & l' & u' & -> & Nn & Ne & F' & L' & ->)|(l' & u' & -> & _ & _ & ->)]]]].
    + exfalso. destruct (name_split _ _ _ _ Nn1 Nw (B _) N2 E) as [_ E2]. exact (stop_not_open _ _ S2 (eq_sym E2)).
    + exfalso. exact (name_not _ 34 _ _ Nn1 eq_refl E).
    + exfalso. rewrite <- !app_assoc in E. destruct (name_split _ _ _ _ Nn1 Nn (B _) (Q _) E) as [_ E2]. discriminate E2.
    + rewrite <- !app_assoc in E. destruct (name_split _ _ _ _ Nn1 Nn (B _) (B _) E) as [-> E2]. apply app_inv_head in E2.
      assert (T : Forall (told spelt fine_dv) l). { rewrite Forall_forall in *. intros v I. rewrite forallb_forall in F1. exact (IH v I (F1 v I)). }
      destruct (listed_told spelt fine_dv (lit ")") l l' u1 u' r r' T F' (or_intror (or_introl eq_refl)) L1 L' Ne1 Ne E2) as (-> & -> & ->). auto.
    + exfalso. exact (name_not _ 91 _ _ Nn1 eq_refl E).
  - intros l IH F t d' t' r r' O R R' S1 S2 E. destruct (spelt_split _ _ F R) as [(? & D & _)|[(? & D & _)|[(? & ? & ? & D & _)|[(? & ? & ? & D & _)|(l1 & u1 & D & F1 & L1 & T1)]]]]; try discriminate D.
    injection D as <-. subst t. rewrite <- !app_assoc in E.
    destruct (spelt_split _ _ O R') as [(w' & -> & -> & Nw)|[(s' & -> & (b & _ & ->))|[(n' & fs' & u' & -> & Nn & Ne & F' & L' & ->)|[(n' & l' & u' & -> & Nn & Ne & F' & L' & ->)|(l' & u' & -> & F' & L' & ->)]]]].
    + exfalso. symmetry in E. exact (name_not _ 91 _ _ Nw eq_refl E).
    + discriminate E.
    + exfalso. symmetry in E. rewrite <- app_assoc in E. exact (name_not _ 91 _ _ Nn eq_refl E).
    + exfalso. symmetry in E. rewrite <- app_assoc in E. exact (name_not _ 91 _ _ Nn eq_refl E).
    + rewrite <- !app_assoc in E. apply app_inv_head in E.
      assert (T : Forall (told spelt fine_dv) l). { rewrite Forall_forall in *. intros v I. rewrite forallb_forall in F1. exact (IH v I (F1 v I)). }
      destruct l as [|v l], l' as [|v' l'].
      * apply listed_nil_inv in L1. apply listed_nil_inv in L'. subst. cbn [app] in E. apply app_inv_head in E. auto.
      * exfalso. apply listed_nil_inv in L1. subst u1. destruct (listed_head _ _ _ _ spelt_opens F' L' ltac:(discriminate)) as (c & w & -> & Hc). change ([] ++ lit "]" ++ r) with (93 :: r) in E. injection E as E _. congruence.
      * exfalso. apply listed_nil_inv in L'. subst u'. destruct (listed_head _ _ _ _ spelt_opens F1 L1 ltac:(discriminate)) as (c & w & -> & Hc). change ([] ++ lit "]" ++ r') with (93 :: r') in E. injection E as E _. congruence.
      * destruct (listed_told spelt fine_dv (lit "]") (v :: l) (v' :: l') u1 u' r r' T F' (or_introl eq_refl) L1 L' ltac:(discriminate) ltac:(discriminate) E) as (-> & -> & ->). auto.
Qed.
Lemma separated_listed : forall {A} (R : A -> str -> Prop) (f : A -> str) l, (forall a, In a l -> R a (f a)) -> listed R l (separated (map f l)).
Proof.
  intros A R f l H. induction l as [|a l IH]; [constructor|]. destruct l as [|b l]; [constructor; apply H; left; reflexivity|].
  change (separated (map f (a :: b :: l))) with (f a ++ lit ", " ++ separated (map f (b :: l))). constructor; [apply H; left; reflexivity|]. apply IH. intros x I. apply H. right. exact I.
Qed.
Lemma line_spelt : forall x d, fine_dv d = true -> spelt d (debug_line x d).
Proof.
  intro x. apply (dv_ind' (fun d => fine_dv d = true -> spelt d (debug_line x d))).
  - intros w _. constructor.
  - intros s _. constructor. apply (proj1 C81_literal).
  - intros n fs IH F. cbn [fine_dv] in F. apply andb_prop in F. destruct F as [F1 F2]. destruct fs as [|f fs]; [ands; discriminate|].
    change (debug_line x (DStruct n (f :: fs))) with (n ++ lit " { " ++ separated (map (fun f => fst f ++ lit ": " ++ debug_line x (snd f)) (f :: fs)) ++ lit " }").
    constructor. apply separated_listed. intros [g v] I. cbn [fst snd]. constructor. rewrite Forall_forall in IH. apply (IH (g, v) I). rewrite forallb_forall in F2. specialize (F2 _ I). cbn [fst snd] in *. ands. assumption.
  - intros n l IH F. cbn [fine_dv] in F. apply andb_prop in F. destruct F as [F1 F2]. destruct l as [|v l]; [ands; discriminate|].
    change (debug_line x (DTuple n (v :: l))) with (n ++ lit "(" ++ separated (map (fun v => debug_line x v) (v :: l)) ++ lit ")").
    constructor. apply separated_listed. intros w I. rewrite Forall_forall in IH. apply (IH w I). rewrite forallb_forall in F2. exact (F2 _ I).
  - intros l IH F. cbn [fine_dv] in F. cbn [debug_line]. constructor. apply separated_listed. intros w I. rewrite Forall_forall in IH. apply (IH w I). rewrite forallb_forall in F. exact (F _ I).
Qed.

(** ** The trees *)
Lemma decimal_show : forall ds n, is_decimal ds n -> ds = show n.
Proof.
  intros ds n H. assert (L : n < 2 ^ N.of_nat (S (N.to_nat n))). { rewrite Nat2N.inj_succ, N2Nat.id. pose proof (N.pow_gt_lin_r 2 n ltac:(lia)). rewrite N.pow_succ_r'. lia. }
  rewrite <- (digits_ok _ _ _ L H ltac:(lia)). symmetry. rewrite <- (digits_ok _ _ _ L (show_decimal n) ltac:(lia)). reflexivity.
Qed.
Lemma show_name : forall n, name (show n) = true.
Proof.
  intro n. destruct (show_decimal n) as (Ne & D & _). unfold name. destruct (show n) as [|c u]; [contradiction|]. apply forallb_forall. intros d I. apply D in I. unfold name_char. lia.
Qed.
Lemma show_one : forall n m, show n = show m -> n = m.
Proof. intros n m E. destruct (show_decimal n) as (_ & _ & V & _). destruct (show_decimal m) as (_ & _ & V' & _). rewrite <- V, <- V', E. reflexivity. Qed.
Lemma map_one : forall {A B} (f : A -> B) l l', Forall (fun a => forall a', f a = f a' -> a = a') l -> map f l = map f l' -> l = l'.
Proof.
  intros A B f l. induction l as [|a l IH]; intros [|a' l'] F E; try discriminate E; [reflexivity|]. inversion F as [|? ? Ha Fl]; subst. cbn [map] in E. injection E as E1 E2. f_equal; [apply Ha; exact E1|apply IH; assumption].
Qed.
Lemma bool_one : forall a b, dv_bool a = dv_bool b -> a = b.
Proof. intros [|] [|] E; try reflexivity; discriminate E. Qed.
Lemma mode_one : forall m m', dv_mode m = dv_mode m' -> m = m'.
Proof.
  intros [a b c d e f] [a' b' c' d' e' f'] E. unfold dv_mode in E. cbn [caseless dotall ignore_space multiline ucp utf8] in E.
  assert (X : forall n (fs fs' : list (str * dv)), DStruct n fs = DStruct n fs' -> map snd fs = map snd fs') by (intros n fs fs' H; injection H as ->; reflexivity). apply X in E. cbn [map snd] in E.
  injection E as E1 E2 E3 E4 E5 E6. f_equal; apply bool_one; unfold dv_bool; f_equal; assumption.
Qed.
Lemma reach_one : forall k k', dv_reach k = dv_reach k' -> k = k'.
Proof.
  intros [a b c d] [a' b' c' d'] E. unfold dv_reach, dv_field, dv_number in E. cbn [map] in E. injection E as E1 E2 E3 E4. f_equal; apply show_one; assumption.
Qed.
Lemma class_one : forall k k', dv_class k = dv_class k' -> k = k'.
Proof.
  intros [m r] [m' r'] E. unfold dv_class in E. cbn [ac_mode ac_cr] in E.
  assert (X : forall n n2 (fs fs' : list (str * dv)), DTuple n [DStruct n2 fs] = DTuple n [DStruct n2 fs'] -> map snd fs = map snd fs') by (intros n n2 fs fs' H; injection H as ->; reflexivity). apply X in E. cbn [map snd] in E.
  assert (Y : forall a b a' b' : dv, [a; b] = [a'; b'] -> a = a' /\ b = b') by (intros a b a' b' H; injection H as -> ->; auto). apply Y in E. destruct E as [E1 E2]. f_equal; [apply mode_one|apply reach_one]; assumption.
Qed.
Lemma option_one : forall {A} (f : A -> dv) o o', (forall a a', f a = f a' -> a = a') -> dv_option f o = dv_option f o' -> o = o'.
Proof. intros A f [a|] [a'|] H E; try discriminate E; [|reflexivity]. cbn [dv_option] in E. injection E as E. f_equal. apply H. exact E. Qed.
Lemma component_one : forall c c', dv_component c = dv_component c' -> c = c'.
Proof.
  apply (comp_all (fun c => forall c', dv_component c = dv_component c' -> c = c') (fun s => forall s', dv_seqn s = dv_seqn s' -> s = s')).
  - intros bs F [bs'|k|s] E; try discriminate E. cbn [dv_component] in E. injection E as E. f_equal. exact (map_one _ _ _ F E).
  - intros k [bs'|k'|s] E; try discriminate E. f_equal. apply class_one.
    assert (X : forall n a a', DTuple n [a] = DTuple n [a'] -> a = a') by (intros n a a' H; injection H as ->; reflexivity). cbn [dv_component] in E. apply X in E. exact E.
  - intros s H [bs'|k'|s'] E; try discriminate E. f_equal. apply H.
    assert (X : forall n a a', DTuple n [a] = DTuple n [a'] -> a = a') by (intros n a a' H'; injection H' as ->; reflexivity). cbn [dv_component] in E. apply X in E. exact E.
  - intros ch alt ci cn F G [ch' alt' ci' cn'] E. cbn [dv_seqn] in E.
    assert (X : forall n (fs fs' : list (str * dv)), DStruct n fs = DStruct n fs' -> map snd fs = map snd fs') by (intros n fs fs' H; injection H as ->; reflexivity). apply X in E. cbn [map snd] in E.
    assert (Y : forall a b c d a' b' c' d' : dv, [a; b; c; d] = [a'; b'; c'; d'] -> a = a' /\ b = b' /\ c = c' /\ d = d') by (intros a b c d a' b' c' d' H; injection H as -> -> -> ->; auto). apply Y in E. destruct E as (E1 & E2 & E3 & E4).
    injection E1 as E1. apply (map_one _ _ _ F) in E1. apply (option_one dv_number) in E3; [|intros n m E; injection E as E; apply show_one; exact E]. apply (option_one DText) in E4; [|intros n m E; injection E as E; exact E].
    assert (alt = alt'); [|congruence]. destruct alt as [bs|], alt' as [bs'|]; try discriminate E2; [|reflexivity]. injection E2 as E2. f_equal. exact (map_one _ _ _ (G bs eq_refl) E2).
Qed.
Lemma component_fine : forall c, fine_dv (dv_component c) = true.
Proof.
  assert (B : forall b, fine_dv (dv_bool b) = true) by (intros [|]; reflexivity).
  assert (M : forall {A} (f : A -> dv) l, Forall (fun a => fine_dv (f a) = true) l -> forallb (fun v => fine_dv v) (map f l) = true).
  { intros A f l F. apply forallb_forall. intros v I. apply in_map_iff in I. destruct I as (a & <- & I). rewrite Forall_forall in F. exact (F a I). }
  Ltac fold_map M F bs := match goal with |- context [forallb ?g (map ?h bs)] => replace (forallb g (map h bs)) with true by (symmetry; exact (M _ _ _ F)) end.
  apply (comp_all (fun c => fine_dv (dv_component c) = true) (fun s => fine_dv (dv_seqn s) = true)).
  - intros bs F. cbn [dv_component fine_dv forallb fst snd]. fold_map M F bs. reflexivity.
  - intros [m [w0 w1 w2 w3]]. cbn [dv_component dv_class dv_mode dv_reach dv_field ac_mode ac_cr fine_dv forallb fst snd map]. rewrite !B. unfold dv_number. cbn [fine_dv]. rewrite !show_name. reflexivity.
  - intros s H. cbn [dv_component fine_dv forallb]. rewrite H. reflexivity.
  - intros ch alt ci cn F G. cbn [dv_seqn fine_dv forallb fst snd]. fold_map M F ch. assert (X : fine_dv (dv_option dv_number ci) = true) by (destruct ci as [n|]; [cbn [dv_option fine_dv forallb]; unfold dv_number; cbn [fine_dv]; rewrite show_name|]; reflexivity). rewrite X.
    assert (Y : fine_dv (dv_option DText cn) = true) by (destruct cn; reflexivity). rewrite Y. destruct alt as [bs|]; [cbn [fine_dv forallb fst snd]; fold_map M (G bs eq_refl) bs|]; reflexivity.
Qed.

(** ** The texts of the trees *)
Lemma listed_map : forall {A B} (R : A -> str -> Prop) (R' : B -> str -> Prop) (f : A -> B) l t,
  (forall a u, In a l -> R a u -> R' (f a) u) -> listed R l t -> listed R' (map f l) t.
Proof.
  intros A B R R' f l t H L. induction L as [|a t Ra|a b l t u Ra L IH]; cbn [map] in *.
  - constructor.
  - constructor. apply H; [left; reflexivity|exact Ra].
  - constructor; [apply H; [left; reflexivity|exact Ra]|]. apply IH. intros x v I. apply H. right. exact I.
Qed.
Lemma spelt_bool : forall b, spelt (dv_bool b) (truth b).
Proof. intros b. constructor. Qed.
Lemma spelt_number : forall n t, is_decimal t n -> spelt (dv_number n) t.
Proof. intros n t D. rewrite (decimal_show _ _ D). constructor. Qed.
Lemma spelt_optional : forall {A} (R : A -> str -> Prop) (f : A -> dv) o t, (forall a u, R a u -> spelt (f a) u) -> optional R o t -> spelt (dv_option f o) t.
Proof.
  intros A R f o t H O. destruct O as [|a t Ra]; [constructor|]. cbn [dv_option]. change (lit "Some(" ++ t ++ lit ")") with (lit "Some" ++ lit "(" ++ t ++ lit ")").
  constructor. constructor. apply H. exact Ra.
Qed.
(** The text of a struct, given those of its fields. *)
Fixpoint fields_text (l : list (str * str)) : str :=
  match l with [] => [] | [(f, t)] => f ++ lit ": " ++ t | (f, t) :: l => f ++ lit ": " ++ t ++ lit ", " ++ fields_text l end.
Lemma spelt_fields : forall n fs ts, Forall2 (fun f t => fst f = fst t /\ spelt (snd f) (snd t)) fs ts -> spelt (DStruct n fs) (n ++ lit " { " ++ fields_text ts ++ lit " }").
Proof.
  intros n fs ts F. constructor. induction F as [|[f v] [g t] fs ts [H1 H2] F IH]; [constructor|]. cbn [fst snd] in *. subst g. destruct fs as [|f2 fs]; inversion F as [|? t2 ? ts' ? ?]; subst.
  - cbn [fields_text]. constructor. constructor. exact H2.
  - replace (fields_text ((f, t) :: t2 :: ts')) with ((f ++ lit ": " ++ t) ++ lit ", " ++ fields_text (t2 :: ts')) by (rewrite <- !app_assoc; reflexivity). constructor; [constructor; exact H2|]. exact IH.
Qed.
Ltac text_eq := cbn [fields_text app]; rewrite ?app_nil_r, <- ?app_assoc; reflexivity.
Ltac fields := repeat (constructor; [split; [reflexivity|cbn [fst snd]]|]); [..|constructor].
Lemma spelt_mode : forall m t, shows_mode m t -> spelt (dv_mode m) t.
Proof.
  intros m t ->. set (ts := [(lit "caseless", truth (caseless m)); (lit "dotall", truth (dotall m)); (lit "ignore_space", truth (ignore_space m));
    (lit "multiline", truth (multiline m)); (lit "ucp", truth (ucp m)); (lit "utf8", truth (utf8 m))]).
  match goal with |- spelt _ ?t => replace t with (lit "ParseMode" ++ lit " { " ++ fields_text ts ++ lit " }") by (unfold ts; text_eq) end.
  apply spelt_fields. unfold ts. fields; apply spelt_bool.
Qed.
Lemma spelt_class : forall k t, shows_class k t -> spelt (dv_class k) t.
Proof.
  intros k t (m & ws & Hm & Hw & ->). apply spelt_mode in Hm.
  assert (W : spelt (DList (map dv_number (words_of (ac_cr k)))) (lit "[" ++ ws ++ lit "]")).
  { constructor. eapply listed_map; [|exact Hw]. intros a u _ D. apply spelt_number. exact D. }
  set (f1 := lit "BitField256" ++ lit " { " ++ fields_text [(lit "bits", lit "[" ++ ws ++ lit "]")] ++ lit " }").
  assert (F1 : spelt (dv_field (ac_cr k)) f1) by (apply spelt_fields; fields; exact W).
  set (f2 := lit "CharReach" ++ lit " { " ++ fields_text [(lit "bits", f1)] ++ lit " }").
  assert (F2 : spelt (dv_reach (ac_cr k)) f2) by (apply spelt_fields; fields; exact F1).
  set (f3 := lit "AsciiComponentClass" ++ lit " { " ++ fields_text [(lit "mode", m); (lit "cr", f2)] ++ lit " }").
  assert (F3 : spelt (DStruct (lit "AsciiComponentClass") [(lit "mode", dv_mode (ac_mode k)); (lit "cr", dv_reach (ac_cr k))]) f3) by (apply spelt_fields; fields; assumption).
  match goal with |- spelt _ ?t => replace t with (lit "Ascii" ++ lit "(" ++ f3 ++ lit ")") by (unfold f3, f2, f1; text_eq) end.
  constructor. constructor. exact F3.
Qed.
Lemma spelt_children : forall {A} (f : A -> dv) l t, listed spelt (map f l) t ->
  spelt (DStruct (lit "ComponentAlternation") [(lit "children", DList (map f l))]) (lit "ComponentAlternation { children: [" ++ t ++ lit "] }").
Proof.
  intros A f l t L. replace (lit "ComponentAlternation { children: [" ++ t ++ lit "] }") with (lit "ComponentAlternation" ++ lit " { " ++ fields_text [(lit "children", lit "[" ++ t ++ lit "]")] ++ lit " }") by text_eq.
  apply spelt_fields. fields. constructor. exact L.
Qed.
Lemma shows_spelt : forall c t, shows c t -> spelt (dv_component c) t.
Proof.
  apply (comp_all (fun c => forall t, shows c t -> spelt (dv_component c) t) (fun s => forall t, shows_seqn s t -> spelt (dv_seqn s) t)).
  - intros bs F t H. inversion H as [? u L| |]; subst. cbn [dv_component].
    replace (lit "Alternation(ComponentAlternation { children: [" ++ u ++ lit "] })") with (lit "Alternation" ++ lit "(" ++ (lit "ComponentAlternation { children: [" ++ u ++ lit "] }") ++ lit ")") by text_eq.
    constructor. constructor. apply spelt_children. eapply listed_map; [|exact L]. rewrite Forall_forall in F. intros s v I. apply F. exact I.
  - intros k t H. inversion H as [|? u K|]; subst. cbn [dv_component]. change (lit "Class(" ++ u ++ lit ")") with (lit "Class" ++ lit "(" ++ u ++ lit ")"). constructor. constructor. apply spelt_class. exact K.
  - intros s IH t H. inversion H as [| |? u K]; subst. cbn [dv_component]. change (lit "Sequence(" ++ u ++ lit ")") with (lit "Sequence" ++ lit "(" ++ u ++ lit ")"). constructor. constructor. apply IH. exact K.
  - intros ch alt ci cn F G t H. cbn [dv_seqn].
    assert (Lc : forall u, listed shows ch u -> spelt (DList (map (fun c => dv_component c) ch)) (lit "[" ++ u ++ lit "]")).
    { intros u L. constructor. eapply listed_map; [|exact L]. rewrite Forall_forall in F. intros c v I. apply F. exact I. }
    assert (Oi : forall u, optional decimal ci u -> spelt (dv_option dv_number ci) u) by (intros u; apply spelt_optional; intros a v; apply spelt_number).
    assert (On : forall u, optional quoted cn u -> spelt (dv_option DText cn) u) by (intros u; apply spelt_optional; intros a v Q; constructor; exact Q).
    inversion H as [? ? ? u v w L I N|? bs ? ? u a v w L La I N]; subst.
    + match goal with |- spelt _ ?t => replace t with (lit "ComponentSequence" ++ lit " { " ++ fields_text [(lit "children", lit "[" ++ u ++ lit "]"); (lit "alternation", lit "None"); (lit "capture_index", v); (lit "capture_name", w)] ++ lit " }") by text_eq end.
      apply spelt_fields. fields; auto. constructor.
    + match goal with |- spelt _ ?t => replace t with (lit "ComponentSequence" ++ lit " { " ++ fields_text [(lit "children", lit "[" ++ u ++ lit "]"); (lit "alternation", lit "Some" ++ lit "(" ++ (lit "ComponentAlternation { children: [" ++ a ++ lit "] }") ++ lit ")"); (lit "capture_index", v); (lit "capture_name", w)] ++ lit " }") by text_eq end.
      apply spelt_fields. fields; auto. constructor. constructor. apply spelt_children. eapply listed_map; [|exact La]. specialize (G bs eq_refl). rewrite Forall_forall in G. intros s x J. apply G. exact J.
Qed.
Lemma shows_one : forall c c' t t' r r', shows c t -> shows c' t' -> stop r -> stop r' -> t ++ r = t' ++ r' -> c = c' /\ t = t' /\ r = r'.
Proof.
  intros c c' t t' r r' H H' S1 S2 E. apply shows_spelt in H, H'. destruct (spelt_told _ (component_fine c) _ _ _ _ _ (component_fine c') H H' S1 S2 E) as (D & -> & ->). apply component_one in D. auto.
Qed.
(** What the printer writes. *)
Lemma line_optional : forall {A} (R : A -> str -> Prop) x (f : A -> dv) o, (forall a, R a (debug_line x (f a))) -> optional R o (debug_line x (dv_option f o)).
Proof. intros A R x f [a|] H; [|constructor]. change (debug_line x (dv_option f (Some a))) with (lit "Some(" ++ debug_line x (f a) ++ lit ")"). constructor. apply H. Qed.
Lemma line_mode : forall x m, shows_mode m (debug_line x (dv_mode m)).
Proof. intros x m. unfold shows_mode. cbn [dv_mode debug_line map separated fst snd dv_bool]. unfold truth. rewrite <- ?app_assoc. reflexivity. Qed.
Lemma line_class : forall x k, shows_class k (debug_line x (dv_class k)).
Proof.
  intros x k. exists (debug_line x (dv_mode (ac_mode k))), (separated (map (fun n => debug_line x (dv_number n)) (words_of (ac_cr k)))). split; [apply line_mode|]. split; [apply separated_listed; intros n _; apply show_decimal|].
  unfold dv_class. change (debug_line x (DTuple (lit "Ascii") [DStruct (lit "AsciiComponentClass") [(lit "mode", dv_mode (ac_mode k)); (lit "cr", dv_reach (ac_cr k))]])) with
    (lit "Ascii" ++ lit "(" ++ (lit "AsciiComponentClass" ++ lit " { " ++ ((lit "mode" ++ lit ": " ++ debug_line x (dv_mode (ac_mode k))) ++ lit ", " ++
       (lit "cr" ++ lit ": " ++ (lit "CharReach" ++ lit " { " ++ (lit "bits" ++ lit ": " ++ (lit "BitField256" ++ lit " { " ++ (lit "bits" ++ lit ": " ++ (lit "[" ++ separated (map (fun v => debug_line x v) (map dv_number (words_of (ac_cr k)))) ++ lit "]")) ++ lit " }")) ++ lit " }"))) ++ lit " }") ++ lit ")").
  rewrite map_map, <- ?app_assoc. reflexivity.
Qed.
Lemma line_children : forall {A} (R : A -> str -> Prop) x (f : A -> dv) l, Forall (fun a => R a (debug_line x (f a))) l -> listed R l (separated (map (fun v => debug_line x v) (map f l))).
Proof. intros A R x f l F. rewrite map_map. apply separated_listed. rewrite Forall_forall in F. exact F. Qed.
Lemma line_shows : forall x c, shows c (debug_line x (dv_component c)).
Proof.
  intro x. apply (comp_all (fun c => shows c (debug_line x (dv_component c))) (fun s => shows_seqn s (debug_line x (dv_seqn s)))).
  - intros bs F. pose proof (line_children shows_seqn x (fun s => dv_seqn s) bs F) as L. apply shows_alternation in L.
    match type of L with shows _ ?t => replace (debug_line x (dv_component (CAlternation bs))) with t; [exact L|] end. cbn [dv_component debug_line map separated fst snd]. rewrite <- ?app_assoc. reflexivity.
  - intro k. apply (shows_cclass k _ (line_class x k)).
  - intros s H. apply (shows_sequence s _ H).
  - intros ch alt ci cn F G. pose proof (line_children shows x (fun c => dv_component c) ch F) as L.
    assert (Oi : optional decimal ci (debug_line x (dv_option dv_number ci))) by (apply line_optional; intro n; apply show_decimal).
    assert (On : optional quoted cn (debug_line x (dv_option DText cn))) by (apply line_optional; intro n; apply (proj1 C81_literal)).
    destruct alt as [bs|].
    + pose proof (line_children shows_seqn x (fun s => dv_seqn s) bs (G bs eq_refl)) as La. pose proof (shows_unfinished _ _ _ _ _ _ _ _ L La Oi On) as X.
      match type of X with shows_seqn _ ?t => replace (debug_line x (dv_seqn (Seqn ch (Some bs) ci cn))) with t; [exact X|] end. cbn [dv_seqn debug_line map separated fst snd]. rewrite <- ?app_assoc. reflexivity.
    + pose proof (shows_plain _ _ _ _ _ _ L Oi On) as X.
      match type of X with shows_seqn _ ?t => replace (debug_line x (dv_seqn (Seqn ch None ci cn))) with t; [exact X|] end. cbn [dv_seqn debug_line map separated fst snd]. rewrite <- ?app_assoc. reflexivity.
Qed.

(** ** Texts on several lines *)
Definition sp (k : nat) : str := repeat 32 (4 * k).
(** The same with the depth given instead of found by padding. *)
Fixpoint deep (x : escapes) (k : nat) (d : dv) : str :=
  match d with
  | DWord w => w
  | DText s => debug_str x s
  | DStruct n [] => n
  | DStruct n fs => n ++ lit " {" ++ [10] ++ flat_map (fun f => sp (S k) ++ fst f ++ lit ": " ++ deep x (S k) (snd f) ++ [44; 10]) fs ++ sp k ++ lit "}"
  | DTuple n [] => n
  | DTuple n l => n ++ lit "(" ++ [10] ++ flat_map (fun v => sp (S k) ++ deep x (S k) v ++ [44; 10]) l ++ sp k ++ lit ")"
  | DList [] => lit "[]"
  | DList l => lit "[" ++ [10] ++ flat_map (fun v => sp (S k) ++ deep x (S k) v ++ [44; 10]) l ++ sp k ++ lit "]"
  end.
(** Whether a text leaves a [PadAdapter] at the beginning of a line. *)
Definition ends (f : bool) (s : str) : bool := fold_left (fun _ c => c =? 10) s f.
Lemma pad_app : forall a f b, pad f (a ++ b) = pad f a ++ pad (ends f a) b.
Proof. induction a as [|c a IH]; intros f b; [reflexivity|]. cbn [app pad ends fold_left]. rewrite IH, <- app_assoc. reflexivity. Qed.
Lemma ends_app : forall a b f, ends f (a ++ b) = ends (ends f a) b.
Proof. intros a b f. unfold ends. apply fold_left_app. Qed.
Lemma pad_flat : forall s, ~ In 10 s -> pad false s = s /\ ends false s = false.
Proof.
  induction s as [|c s IH]; intro H; [auto|]. cbn [pad ends fold_left app]. assert (c =? 10 = false) as -> by (apply N.eqb_neq; intros ->; apply H; left; reflexivity).
  destruct (IH (fun I => H (or_intror I))) as [-> E]. auto.
Qed.
Lemma name_flat : forall w, name w = true -> ~ In 10 w.
Proof. intros w H I. assert (F : forallb name_char w = true) by (destruct w; [discriminate H|exact H]). rewrite forallb_forall in F. specialize (F _ I). discriminate F. Qed.
Lemma str_flat : forall x s, ~ In 10 (debug_str x s).
Proof.
  intros x s I. unfold debug_str in I. apply in_app_or in I. destruct I as [I|I]; [cbn in I; destruct I as [I|[]]; discriminate I|]. apply in_app_or in I. destruct I as [I|I]; [|cbn in I; destruct I as [I|[]]; discriminate I].
  apply in_flat_map in I. destruct I as (c & _ & I). unfold escape in I.
  destruct ((c =? 0) && short_nul x); [vm_compute in I; intuition discriminate|]. destruct (c =? 9); [vm_compute in I; intuition discriminate|]. destruct (c =? 10) eqn:Nc; [vm_compute in I; intuition discriminate|]. apply N.eqb_neq in Nc.
  destruct (c =? 13); [vm_compute in I; intuition discriminate|]. destruct (c =? 34); [vm_compute in I; intuition discriminate|]. destruct (c =? 92); [vm_compute in I; intuition discriminate|].
  destruct (shown x c); [destruct I as [I|[]]; congruence|]. apply in_app_or in I. destruct I as [I|I]; [vm_compute in I; intuition discriminate|]. apply in_app_or in I. destruct I as [I|I]; [|vm_compute in I; intuition discriminate].
  rewrite show_hex_string in I. apply hex_digits in I. lia.
Qed.
Lemma sp_S : forall k, sp (S k) = lit "    " ++ sp k.
Proof. intro k. unfold sp. replace (4 * S k)%nat with (4 + 4 * k)%nat by lia. reflexivity. Qed.
Lemma sp_flat : forall k, ~ In 10 (sp k).
Proof. intros k I. apply repeat_spec in I. discriminate I. Qed.
(** The beginning of a line. *)
Lemma pad_line : forall k s, s <> [] -> ~ In 10 s -> pad true (sp k ++ s) = sp (S k) ++ s /\ ends true (sp k ++ s) = false.
Proof.
  intros k s Ne H. assert (X : ~ In 10 (sp k ++ s)) by (intro I; apply in_app_or in I; destruct I as [I|I]; [exact (sp_flat k I)|exact (H I)]). rewrite sp_S, <- app_assoc.
  assert (Ne' : sp k ++ s <> []) by (destruct (sp k); [exact Ne|discriminate]). destruct (sp k ++ s) as [|c t]; [contradiction|]. cbn [pad ends fold_left].
  assert (c =? 10 = false) as -> by (apply N.eqb_neq; intros ->; apply X; left; reflexivity). destruct (pad_flat t (fun I => X (or_intror I))) as [-> E]. split; [reflexivity|exact E].
Qed.
(** A text that one may put after something on its line and before something else. *)
Definition sound (a b : str) : Prop := pad false a = b /\ ends false a = false.
Lemma sound_app : forall a b a' b', sound a b -> sound a' b' -> sound (a ++ a') (b ++ b').
Proof. intros a b a' b' [H1 H2] [H3 H4]. split; [rewrite pad_app, H1, H2, H3; reflexivity|rewrite ends_app, H2; exact H4]. Qed.
Lemma sound_flat : forall a, ~ In 10 a -> sound a a.
Proof. exact pad_flat. Qed.
Lemma entry_pad : forall k a b l, sound a b -> a <> [] -> hd 0 a <> 10 -> pad true ((sp k ++ a ++ [44; 10]) ++ l) = sp (S k) ++ b ++ [44; 10] ++ pad true l /\ ends true ((sp k ++ a ++ [44; 10]) ++ l) = ends true l.
Proof.
  intros k a b l [H1 H2] Ne Hd. destruct a as [|c a]; [contradiction|]. cbn [hd] in Hd. assert (Hc : c =? 10 = false) by (apply N.eqb_neq; exact Hd).
  assert (X : pad true (sp k ++ [c]) = sp (S k) ++ [c] /\ ends true (sp k ++ [c]) = false) by (apply pad_line; [discriminate|intros [I|[]]; congruence]). destruct X as [X1 X2].
  replace ((sp k ++ (c :: a) ++ [44; 10]) ++ l) with ((sp k ++ [c]) ++ a ++ [44; 10] ++ l) by (rewrite <- !app_assoc; reflexivity).
  cbn [pad ends fold_left app] in H1, H2. rewrite Hc in H1, H2. rewrite (pad_app (sp k ++ [c])), (ends_app (sp k ++ [c])), X1, X2, (pad_app a), (ends_app a). fold (ends false a) in H2. rewrite H2. subst b. split; [|reflexivity]. rewrite <- !app_assoc. reflexivity.
Qed.
Lemma deep_head : forall x k d, fine_dv d = true -> exists c t, deep x k d = c :: t /\ c <> 10 /\ c <> 32 /\ c <> 93.
Proof.
  assert (X : forall n r, name n = true -> exists c t, n ++ r = c :: t /\ c <> 10 /\ c <> 32 /\ c <> 93).
  { intros n r H. destruct (name_head n H) as (c & u & -> & Hc). exists c. eexists. split; [reflexivity|]. split; [|split]; intros ->; discriminate Hc. }
  intros x k [w|s|n fs|n l|l] F; cbn [fine_dv] in F.
  - cbn [deep]. rewrite <- (app_nil_r w). apply X. exact F.
  - exists 34. eexists. split; [reflexivity|]. repeat split; discriminate.
  - ands. destruct fs as [|f fs]; [discriminate|]. cbn [deep]. apply X. assumption.
  - ands. destruct l as [|f l]; [discriminate|]. cbn [deep]. apply X. assumption.
  - destruct l as [|v l]; (exists 91; eexists; split; [reflexivity|]; repeat split; discriminate).
Qed.
(** Lines of entries. *)
Lemma pad_entries : forall {A} k (f g : A -> str) (z : str) l, (forall a, In a l -> sound (f a) (g a) /\ f a <> [] /\ hd 0 (f a) <> 10) -> z <> [] -> ~ In 10 z ->
  pad true (flat_map (fun a => sp (S k) ++ f a ++ [44; 10]) l ++ sp k ++ z) = flat_map (fun a => sp (S (S k)) ++ g a ++ [44; 10]) l ++ sp (S k) ++ z /\
  ends true (flat_map (fun a => sp (S k) ++ f a ++ [44; 10]) l ++ sp k ++ z) = false.
Proof.
  intros A k f g z l H Nz Hz. induction l as [|a l IH]; [cbn [flat_map app]; apply pad_line; assumption|].
  cbn [flat_map]. destruct (H a (or_introl eq_refl)) as (S1 & Ne & Hd). destruct IH as [I1 I2]; [intros b I; apply H; right; exact I|]. rewrite <- app_assoc.
  destruct (entry_pad (S k) (f a) (g a) (flat_map (fun a => sp (S k) ++ f a ++ [44; 10]) l ++ sp k ++ z) S1 Ne Hd) as [P1 P2]. rewrite P1, P2, I1, I2. split; [|reflexivity]. rewrite <- !app_assoc. reflexivity.
Qed.
Lemma pad_newline : forall a, ~ In 10 a -> forall t u, pad true t = u -> ends true t = false -> sound (a ++ [10] ++ t) (a ++ [10] ++ u).
Proof.
  intros a H t u P Q. destruct (pad_flat a H) as [H1 H2]. split.
  - rewrite (pad_app a), H1, H2. change (pad false ([10] ++ t)) with (10 :: pad true t). rewrite P. reflexivity.
  - rewrite (ends_app a), H2. exact Q.
Qed.
Lemma flat_app : forall (a b : str), ~ In 10 a -> ~ In 10 b -> ~ In 10 (a ++ b).
Proof. intros a b H H' I. apply in_app_or in I. destruct I; contradiction. Qed.
Lemma deep_pad : forall x d k, fine_dv d = true -> sound (deep x k d) (deep x (S k) d).
Proof.
  intros x. apply (dv_ind' (fun d => forall k, fine_dv d = true -> sound (deep x k d) (deep x (S k) d))).
  - intros w k F. apply sound_flat. apply name_flat. exact F.
  - intros s k _. apply sound_flat. apply str_flat.
  - intros n fs IH k F. cbn [fine_dv] in F. ands. destruct fs as [|f fs]; [discriminate|]. rewrite Forall_forall in IH. rewrite forallb_forall in H0.
    destruct (pad_entries k (fun f : str * dv => fst f ++ lit ": " ++ deep x (S k) (snd f)) (fun f : str * dv => fst f ++ lit ": " ++ deep x (S (S k)) (snd f)) (lit "}") (f :: fs)) as [P Q].
    { intros g I. specialize (H0 g I). ands. destruct (name_head _ H0) as (c & u & E & Hc). split; [|split].
      - apply sound_app; [apply sound_flat, name_flat; assumption|]. apply sound_app; [apply sound_flat; vm_compute; intuition discriminate|]. apply IH; assumption.
      - cbv beta. rewrite E. discriminate.
      - cbv beta. rewrite E. cbn [hd app]. intros ->. discriminate Hc. }
    { discriminate. } { vm_compute. intuition discriminate. }
    assert (Y : forall j, deep x j (DStruct n (f :: fs)) = (n ++ lit " {") ++ [10] ++ (flat_map (fun f => sp (S j) ++ (fst f ++ lit ": " ++ deep x (S j) (snd f)) ++ [44; 10]) (f :: fs) ++ sp j ++ lit "}")).
    { intro j. cbn [deep]. rewrite <- app_assoc. do 4 f_equal. apply flat_map_ext. intros a. rewrite <- !app_assoc. reflexivity. }
    rewrite !Y. apply pad_newline; [|exact P|exact Q]. apply flat_app; [apply name_flat; assumption|vm_compute; intuition discriminate].
  - intros n l IH k F. cbn [fine_dv] in F. ands. destruct l as [|v l]; [discriminate|]. rewrite Forall_forall in IH. rewrite forallb_forall in H0.
    destruct (pad_entries k (fun v => deep x (S k) v) (fun v => deep x (S (S k)) v) (lit ")") (v :: l)) as [P Q].
    { intros g I. specialize (H0 g I). destruct (deep_head x (S k) _ H0) as (c & u & E & Hc & _). split; [apply IH; assumption|]. cbv beta. rewrite E. split; [discriminate|exact Hc]. }
    { discriminate. } { vm_compute. intuition discriminate. }
    change (sound ((n ++ lit "(" ++ [10] ++ flat_map (fun v => sp (S k) ++ deep x (S k) v ++ [44; 10]) (v :: l) ++ sp k ++ lit ")")) (n ++ lit "(" ++ [10] ++ flat_map (fun v => sp (S (S k)) ++ deep x (S (S k)) v ++ [44; 10]) (v :: l) ++ sp (S k) ++ lit ")")).
    rewrite !(app_assoc n). apply pad_newline; [|exact P|exact Q]. apply flat_app; [apply name_flat; assumption|vm_compute; intuition discriminate].
  - intros l IH k F. cbn [fine_dv] in F. destruct l as [|v l]; [apply sound_flat; vm_compute; intuition discriminate|]. rewrite Forall_forall in IH. rewrite forallb_forall in F.
    destruct (pad_entries k (fun v => deep x (S k) v) (fun v => deep x (S (S k)) v) (lit "]") (v :: l)) as [P Q].
    { intros g I. specialize (F g I). destruct (deep_head x (S k) _ F) as (c & u & E & Hc & _). split; [apply IH; assumption|]. cbv beta. rewrite E. split; [discriminate|exact Hc]. }
    { discriminate. } { vm_compute. intuition discriminate. }
    apply (pad_newline (lit "[")); [|exact P|exact Q]. vm_compute; intuition discriminate.
Qed.
Lemma lines_deep : forall x d, fine_dv d = true -> debug_lines x d = deep x 0 d.
Proof.
  intro x. assert (E : forall s, s <> [] -> hd 0 s <> 10 -> forall u, sound s u -> padded s = sp 1 ++ u ++ [44; 10]).
  { intros s Ne Hd u S1. unfold padded. pose proof (proj1 (entry_pad 0 s u [] S1 Ne Hd)) as P. change (sp 0) with (@nil N) in P. cbn [app] in P. rewrite !app_nil_r in P. exact P. }
  assert (M : forall {A} (f g : A -> str) l, (forall a, In a l -> f a = g a) -> flat_map f l = flat_map g l).
  { intros A f g l H. induction l as [|a l IH]; [reflexivity|]. cbn [flat_map]. rewrite (H a (or_introl eq_refl)), IH; [reflexivity|]. intros b I. apply H. right. exact I. }
  apply (dv_ind' (fun d => fine_dv d = true -> debug_lines x d = deep x 0 d)).
  - reflexivity.
  - reflexivity.
  - intros n fs IH F. cbn [fine_dv] in F. ands. destruct fs as [|f fs]; [discriminate|]. rewrite Forall_forall in IH. rewrite forallb_forall in H0.
    change (debug_lines x (DStruct n (f :: fs))) with (n ++ lit " {" ++ [10] ++ flat_map (fun f : str * dv => padded (fst f ++ lit ": " ++ debug_lines x (snd f))) (f :: fs) ++ lit "}").
    change (deep x 0 (DStruct n (f :: fs))) with (n ++ lit " {" ++ [10] ++ flat_map (fun f : str * dv => sp 1 ++ fst f ++ lit ": " ++ deep x 1 (snd f) ++ [44; 10]) (f :: fs) ++ lit "}").
    do 4 f_equal. apply M. intros g I. specialize (H0 g I). ands. rewrite (IH g I) by assumption. destruct (name_head _ H0) as (c & u & Ec & Hc).
    rewrite (E (fst g ++ lit ": " ++ deep x 0 (snd g)) ltac:(rewrite Ec; discriminate) ltac:(rewrite Ec; cbn [hd app]; intros ->; discriminate Hc) (fst g ++ lit ": " ++ deep x 1 (snd g))); [rewrite <- !app_assoc; reflexivity|].
    apply sound_app; [apply sound_flat, name_flat; assumption|]. apply sound_app; [apply sound_flat; vm_compute; intuition discriminate|]. apply deep_pad. assumption.
  - intros n l IH F. cbn [fine_dv] in F. ands. destruct l as [|v l]; [discriminate|]. rewrite Forall_forall in IH. rewrite forallb_forall in H0.
    change (debug_lines x (DTuple n (v :: l))) with (n ++ lit "(" ++ [10] ++ flat_map (fun v => padded (debug_lines x v)) (v :: l) ++ lit ")").
    change (deep x 0 (DTuple n (v :: l))) with (n ++ lit "(" ++ [10] ++ flat_map (fun v => sp 1 ++ deep x 1 v ++ [44; 10]) (v :: l) ++ lit ")").
    do 4 f_equal. apply M. intros g I. specialize (H0 g I). rewrite (IH g I H0). destruct (deep_head x 0 _ H0) as (c & u & Ec & Hc & _).
    apply E; [rewrite Ec; discriminate|rewrite Ec; exact Hc|apply deep_pad; exact H0].
  - intros l IH F. cbn [fine_dv] in F. destruct l as [|v l]; [reflexivity|]. rewrite Forall_forall in IH. rewrite forallb_forall in F.
    change (debug_lines x (DList (v :: l))) with (lit "[" ++ [10] ++ flat_map (fun v => padded (debug_lines x v)) (v :: l) ++ lit "]").
    change (deep x 0 (DList (v :: l))) with (lit "[" ++ [10] ++ flat_map (fun v => sp 1 ++ deep x 1 v ++ [44; 10]) (v :: l) ++ lit "]").
    do 3 f_equal. apply M. intros g I. specialize (F g I). rewrite (IH g I F). destruct (deep_head x 0 _ F) as (c & u & Ec & Hc & _).
    apply E; [rewrite Ec; discriminate|rewrite Ec; exact Hc|apply deep_pad; exact F].
Qed.
Definition read {A} (F F' : A -> str) (ok : A -> bool) (a : A) : Prop := forall a' r r', ok a' = true -> stop r -> stop r' -> F a ++ r = F' a' ++ r' -> a = a' /\ r = r'.
Lemma entries_read : forall {A} (F F' : A -> str) ok k z, z <> 32 -> forall l l' r r', Forall (read F F' ok) l -> forallb ok l' = true ->
  flat_map (fun a => sp (S k) ++ F a ++ [44; 10]) l ++ sp k ++ z :: r = flat_map (fun a => sp (S k) ++ F' a ++ [44; 10]) l' ++ sp k ++ z :: r' -> l = l' /\ r = r'.
Proof.
  intros A F F' ok k z Hz. assert (C : forall u v, sp k ++ z :: u = sp (S k) ++ v -> False).
  { intros u v E. replace (sp (S k)) with (sp k ++ lit "    ") in E by (unfold sp; replace (4 * S k)%nat with (4 * k + 4)%nat by lia; rewrite repeat_app; reflexivity). rewrite <- app_assoc in E. apply app_inv_head in E. change (lit "    " ++ v) with (32 :: 32 :: 32 :: 32 :: v) in E. congruence. }
  induction l as [|a l IH]; intros [|a' l'] r r' R O E; cbn [flat_map app] in E.
  - apply app_inv_head in E. injection E as ->. auto.
  - exfalso. rewrite <- !app_assoc in E. exact (C _ _ E).
  - exfalso. rewrite <- !app_assoc in E. symmetry in E. exact (C _ _ E).
  - rewrite <- !app_assoc in E. apply app_inv_head in E. inversion R as [|? ? Ra Rl]; subst. cbn [forallb] in O. ands. apply Ra in E; [|assumption|left; reflexivity|left; reflexivity]. destruct E as [-> E].
    injection E as E. destruct (IH l' r r' Rl H0 E) as [-> ->]. auto.
Qed.
Lemma stop_no_brace : forall r u, stop r -> r = lit " {" ++ u -> False.
Proof. intros r u H ->. change (lit " {" ++ u) with (32 :: 123 :: u) in H. destruct H as [H|[H|[H|[_ [v H]]]]]; discriminate H. Qed.
Lemma deep_split : forall x k d, fine_dv d = true ->
  (exists w, d = DWord w /\ deep x k d = w /\ name w = true) \/
  (exists s, d = DText s /\ deep x k d = debug_str x s) \/
  (exists n fs, d = DStruct n fs /\ name n = true /\ forallb (fun e => name (fst e) && fine_dv (snd e)) fs = true /\
     deep x k d = n ++ lit " {" ++ [10] ++ flat_map (fun f => sp (S k) ++ (fst f ++ lit ": " ++ deep x (S k) (snd f)) ++ [44; 10]) fs ++ sp k ++ lit "}") \/
  (exists n l, d = DTuple n l /\ name n = true /\ forallb fine_dv l = true /\
     deep x k d = n ++ lit "(" ++ [10] ++ flat_map (fun v => sp (S k) ++ deep x (S k) v ++ [44; 10]) l ++ sp k ++ lit ")") \/
  (d = DList [] /\ deep x k d = lit "[]") \/
  (exists l, d = DList l /\ forallb fine_dv l = true /\ deep x k d = lit "[" ++ [10] ++ flat_map (fun v => sp (S k) ++ deep x (S k) v ++ [44; 10]) l ++ sp k ++ lit "]").
Proof.
  intros x k [w|s|n fs|n l|l] F; cbn [fine_dv] in F.
  - left. exists w. auto.
  - right. left. exists s. auto.
  - right. right. left. exists n, fs. ands. destruct fs as [|f fs]; [discriminate|]. conjs; try assumption; try reflexivity. cbn [deep]. do 4 f_equal. apply flat_map_ext. intro a. rewrite <- !app_assoc. reflexivity.
  - right. right. right. left. exists n, l. ands. destruct l as [|v l]; [discriminate|]. conjs; try assumption; try reflexivity.
  - destruct l as [|v l]; [right; right; right; right; left; auto|]. right. right. right. right. right. exists (v :: l). conjs; try assumption; try reflexivity.
Qed.
Lemma deep_read : forall x x' d k, fine_dv d = true -> read (deep x k) (deep x' k) fine_dv d.
Proof.
  assert (Q : forall r, no_name (lit " {" ++ r)) by (intro r; reflexivity). assert (B : forall r, no_name (lit "(" ++ r)) by (intro r; reflexivity).
  intros x x'. apply (dv_ind' (fun d => forall k, fine_dv d = true -> read (deep x k) (deep x' k) fine_dv d)).
  - intros w k F d' r r' O S1 S2 E. cbn [deep fine_dv] in F, E. pose proof (stop_no_name _ S1) as N1. pose proof (stop_no_name _ S2) as N2.
    destruct (deep_split x' k d' O) as [(w' & -> & D & Nw)|[(s & -> & D)|[(n & fs & -> & Nn & _ & D)|[(n & l & -> & Nn & _ & D)|[(-> & D)|(l & -> & _ & D)]]]]]; rewrite D in E.
    + destruct (name_split _ _ _ _ F Nw N1 N2 E) as [-> ->]. auto.
    + exfalso. exact (name_not _ 34 _ _ F eq_refl E).
    + exfalso. rewrite <- !app_assoc in E. destruct (name_split _ _ _ _ F Nn N1 (Q _) E) as [_ E2]. exact (stop_no_brace _ _ S1 E2).
    + exfalso. rewrite <- !app_assoc in E. destruct (name_split _ _ _ _ F Nn N1 (B _) E) as [_ E2]. exact (stop_not_open _ _ S1 E2).
    + exfalso. exact (name_not _ 91 _ _ F eq_refl E).
    + exfalso. exact (name_not _ 91 _ _ F eq_refl E).
  - intros s k F d' r r' O S1 S2 E. cbn [deep] in E.
    destruct (deep_split x' k d' O) as [(w' & -> & D & Nw)|[(s' & -> & D)|[(n & fs & -> & Nn & _ & D)|[(n & l & -> & Nn & _ & D)|[(-> & D)|(l & -> & _ & D)]]]]]; rewrite D in E.
    + exfalso. symmetry in E. exact (name_not _ 34 _ _ Nw eq_refl E).
    + destruct (proj2 C81_literal _ _ _ _ _ _ (proj1 C81_literal x s) (proj1 C81_literal x' s') E) as [E1 ->]. rewrite E1 in E. apply app_inv_head in E. auto.
    + exfalso. symmetry in E. rewrite <- app_assoc in E. exact (name_not _ 34 _ _ Nn eq_refl E).
    + exfalso. symmetry in E. rewrite <- app_assoc in E. exact (name_not _ 34 _ _ Nn eq_refl E).
    + discriminate E.
    + discriminate E.
  - intros n fs IH k F d' r r' O S1 S2 E. pose proof (stop_no_name _ S2) as N2.
    destruct (deep_split x k _ F) as [(? & D & _)|[(? & D & _)|[(n1 & fs1 & D & Nn1 & F1 & D1)|[(? & ? & D & _)|[(D & _)|(? & D & _)]]]]]; try discriminate D. injection D as <- <-. rewrite D1 in E. rewrite <- !app_assoc in E.
    destruct (deep_split x' k d' O) as [(w' & -> & D & Nw)|[(s' & -> & D)|[(n' & fs' & -> & Nn & F' & D)|[(n' & l & -> & Nn & _ & D)|[(-> & D)|(l & -> & _ & D)]]]]]; rewrite D in E.
    + exfalso. destruct (name_split _ _ _ _ Nn1 Nw (Q _) N2 E) as [_ E2]. exact (stop_no_brace _ _ S2 (eq_sym E2)).
    + exfalso. exact (name_not _ 34 _ _ Nn1 eq_refl E).
    + rewrite <- !app_assoc in E. destruct (name_split _ _ _ _ Nn1 Nn (Q _) (Q _) E) as [-> E2]. do 2 apply app_inv_head in E2.
      assert (T : Forall (read (fun f => fst f ++ lit ": " ++ deep x (S k) (snd f)) (fun f => fst f ++ lit ": " ++ deep x' (S k) (snd f)) (fun e => name (fst e) && fine_dv (snd e))) fs).
      { rewrite Forall_forall in *. intros [f v] I. rewrite forallb_forall in F1. specialize (F1 _ I). cbn [fst snd] in F1. ands. intros [f' v'] u u' O' T1 T2 E'. cbn [fst snd] in O', E'. ands. rewrite <- !app_assoc in E'.
        destruct (name_split f f' _ _ H H1 (eq_refl : no_name (lit ": " ++ _)) (eq_refl : no_name (lit ": " ++ _)) E') as [-> E3]. apply app_inv_head in E3. destruct (IH _ I (S k) H0 v' u u' H2 T1 T2 E3) as [E4 ->]. cbn [snd] in E4. subst. auto. }
      change (lit "}" ++ r) with (125 :: r) in E2. change (lit "}" ++ r') with (125 :: r') in E2.
      destruct (entries_read _ _ _ k 125 ltac:(discriminate) fs fs' r r' T F' E2) as [-> ->]. auto.
    + exfalso. rewrite <- !app_assoc in E. destruct (name_split _ _ _ _ Nn1 Nn (Q _) (B _) E) as [_ E2]. discriminate E2.
    + exfalso. exact (name_not _ 91 _ _ Nn1 eq_refl E).
    + exfalso. exact (name_not _ 91 _ _ Nn1 eq_refl E).
  - intros n l IH k F d' r r' O S1 S2 E. pose proof (stop_no_name _ S2) as N2.
    destruct (deep_split x k _ F) as [(? & D & _)|[(? & D & _)|[(? & ? & D & _)|[(n1 & l1 & D & Nn1 & F1 & D1)|[(D & _)|(? & D & _)]]]]]; try discriminate D. injection D as <- <-. rewrite D1 in E. rewrite <- !app_assoc in E.
    destruct (deep_split x' k d' O) as [(w' & -> & D & Nw)|[(s' & -> & D)|[(n' & fs' & -> & Nn & F' & D)|[(n' & l' & -> & Nn & F' & D)|[(-> & D)|(l' & -> & _ & D)]]]]]; rewrite D in E.
    + exfalso. destruct (name_split _ _ _ _ Nn1 Nw (B _) N2 E) as [_ E2]. exact (stop_not_open _ _ S2 (eq_sym E2)).
    + exfalso. exact (name_not _ 34 _ _ Nn1 eq_refl E).
    + exfalso. rewrite <- !app_assoc in E. destruct (name_split _ _ _ _ Nn1 Nn (B _) (Q _) E) as [_ E2]. discriminate E2.
    + rewrite <- !app_assoc in E. destruct (name_split _ _ _ _ Nn1 Nn (B _) (B _) E) as [-> E2]. do 2 apply app_inv_head in E2.
      assert (T : Forall (read (deep x (S k)) (deep x' (S k)) fine_dv) l). { rewrite Forall_forall in *. intros v I. rewrite forallb_forall in F1. exact (IH v I (S k) (F1 v I)). }
      change (lit ")" ++ r) with (41 :: r) in E2. change (lit ")" ++ r') with (41 :: r') in E2.
      destruct (entries_read _ _ _ k 41 ltac:(discriminate) l l' r r' T F' E2) as [-> ->]. auto.
    + exfalso. exact (name_not _ 91 _ _ Nn1 eq_refl E).
    + exfalso. exact (name_not _ 91 _ _ Nn1 eq_refl E).
  - intros l IH k F d' r r' O S1 S2 E.
    destruct (deep_split x k _ F) as [(? & D & _)|[(? & D & _)|[(? & ? & D & _)|[(? & ? & D & _)|[(D & D1)|(l1 & D & F1 & D1)]]]]]; try discriminate D; injection D as D; subst l; rewrite D1 in E; rewrite <- ?app_assoc in E;
    destruct (deep_split x' k d' O) as [(w' & -> & D & Nw)|[(s' & -> & D)|[(n' & fs' & -> & Nn & F' & D)|[(n' & l' & -> & Nn & F' & D)|[(-> & D)|(l' & -> & F' & D)]]]]]; rewrite D in E; rewrite <- ?app_assoc in E;
    try (exfalso; symmetry in E; exact (name_not _ 91 _ _ Nw eq_refl E)); try (exfalso; symmetry in E; exact (name_not _ 91 _ _ Nn eq_refl E)); try discriminate E.
    + apply app_inv_head in E. auto.
    + do 2 apply app_inv_head in E. assert (T : Forall (read (deep x (S k)) (deep x' (S k)) fine_dv) l1). { rewrite Forall_forall in *. intros v I. rewrite forallb_forall in F1. exact (IH v I (S k) (F1 v I)). }
      change (lit "]" ++ r) with (93 :: r) in E. change (lit "]" ++ r') with (93 :: r') in E.
      destruct (entries_read _ _ _ k 93 ltac:(discriminate) l1 l' r r' T F' E) as [-> ->]. auto.
Qed.

(** ** The lines of the trees *)
Definition ended (l : list str) : str := flat_map (fun t => t ++ [10]) l.
Lemma ended_app : forall a b, ended (a ++ b) = ended a ++ ended b.
Proof. intros a b. unfold ended. apply flat_map_app. Qed.
Lemma ended_block : forall d f inner z, ended (block d f inner z) = sp d ++ f ++ [10] ++ ended inner ++ sp d ++ z ++ [10].
Proof. intros d f inner z. unfold block, ln. fold (sp d). cbn [ended flat_map]. rewrite ended_app. cbn [ended flat_map app]. rewrite <- !app_assoc. cbn [app]. reflexivity. Qed.
Lemma ended_entries : forall d f {A} (g : A -> list str) l, (forall a, In a l -> g a <> []) ->
  ended (entries d f (flat_map g l)) = match l with [] => sp d ++ f ++ lit "[]," ++ [10] | _ => sp d ++ f ++ lit "[" ++ [10] ++ flat_map (fun a => ended (g a)) l ++ sp d ++ lit "]," ++ [10] end.
Proof.
  intros d f A g l H. assert (X : forall l, ended (flat_map g l) = flat_map (fun a => ended (g a)) l) by (induction l0 as [|a l0 IH]; [reflexivity|]; cbn [flat_map]; rewrite ended_app, IH; reflexivity).
  destruct l as [|a l]; [cbn [flat_map entries ended]; unfold ln; fold (sp d); rewrite <- !app_assoc; reflexivity|]. rewrite <- X. cbn [flat_map]. pose proof (H a (or_introl eq_refl)) as Ne.
  unfold entries. destruct (g a ++ flat_map g l) as [|y t] eqn:G; [destruct (g a); [contradiction|discriminate G]|]. rewrite ended_block, <- !app_assoc. reflexivity.
Qed.
Lemma join_ended : forall l, l <> [] -> ended l = join 10 l ++ [10].
Proof.
  induction l as [|a l IH]; intro Ne; [contradiction|]. destruct l as [|b l]; [cbn [ended flat_map join]; rewrite app_nil_r; reflexivity|].
  change (ended (a :: b :: l)) with ((a ++ [10]) ++ ended (b :: l)). rewrite IH by discriminate. change (join 10 (a :: b :: l)) with (a ++ 10 :: join 10 (b :: l)). rewrite <- !app_assoc. reflexivity.
Qed.
Section Lines.
  Context (x : escapes).
  Lemma ended_option : forall {A} k n (f : A -> dv) (g : A -> str) o, (forall a j, deep x j (f a) = g a) ->
    ended (outline_option k n (option_map g o)) = sp k ++ n ++ lit ": " ++ deep x k (dv_option f o) ++ [44; 10].
  Proof.
    intros A k n f g [a|] H; unfold outline_option, option_map.
    - rewrite ended_block. cbn [dv_option deep flat_map ended]. unfold ln. fold (sp (S k)). rewrite H, <- !app_assoc. cbn [app]. rewrite <- ?app_assoc. reflexivity.
    - cbn [ended flat_map dv_option deep]. unfold ln. fold (sp k). rewrite <- !app_assoc. reflexivity.
  Qed.
  Lemma ended_mode : forall k m, ended (outline_mode k m) = sp k ++ lit "mode: " ++ deep x k (dv_mode m) ++ [44; 10].
  Proof.
    intros k m. unfold outline_mode. rewrite ended_block. unfold dv_mode. cbn [deep flat_map ended fst snd dv_bool]. unfold ln, truth. fold (sp (S k)). rewrite <- !app_assoc. cbn [app]. rewrite <- ?app_assoc. reflexivity.
  Qed.
  Lemma ended_words : forall k c, ended (entries k (lit "bits: ") (map (fun w => ln (S k) (show w ++ lit ",")) (words_of c))) = sp k ++ lit "bits: " ++ deep x k (DList (map dv_number (words_of c))) ++ [44; 10].
  Proof.
    intros k [w0 w1 w2 w3]. cbn [words_of map]. unfold entries. rewrite ended_block. cbn [deep flat_map ended dv_number]. unfold ln, dv_number. cbn [deep]. fold (sp (S k)). rewrite <- !app_assoc. cbn [app]. rewrite <- ?app_assoc. reflexivity.
  Qed.
  Lemma ended_class : forall k c, ended (outline_class show k c) = sp k ++ deep x k (dv_class c) ++ [44; 10].
  Proof.
    intros k c. unfold outline_class. rewrite !ended_block, ended_app, ended_mode, !ended_block, (ended_words (4 + k)).
    change (deep x k (dv_class c)) with (lit "Ascii(" ++ [10] ++ ((sp (1 + k) ++ (lit "AsciiComponentClass {" ++ [10] ++
      ((sp (2 + k) ++ lit "mode" ++ lit ": " ++ deep x (2 + k) (dv_mode (ac_mode c)) ++ [44; 10]) ++
       (sp (2 + k) ++ lit "cr" ++ lit ": " ++ (lit "CharReach {" ++ [10] ++ ((sp (3 + k) ++ lit "bits" ++ lit ": " ++
          (lit "BitField256 {" ++ [10] ++ ((sp (4 + k) ++ lit "bits" ++ lit ": " ++ deep x (4 + k) (DList (map dv_number (words_of (ac_cr c)))) ++ [44; 10]) ++ []) ++ sp (3 + k) ++ lit "}") ++ [44; 10]) ++ []) ++ sp (2 + k) ++ lit "}") ++ [44; 10]) ++ [])
      ++ sp (1 + k) ++ lit "}") ++ [44; 10]) ++ []) ++ sp k ++ lit ")").
    rewrite <- !app_assoc. cbn [app]. rewrite <- ?app_assoc. reflexivity.
  Qed.
  Lemma outline_some : forall q g d c post, outline q g d c post <> [].
  Proof. intros q g d [bs|k|s] post; discriminate. Qed.
  Lemma outline_seqn_some : forall q g d s, outline_seqn q g d s <> [].
  Proof. intros q g d [ch alt ci cn]; discriminate. Qed.
  (** A list of children. *)
  Lemma ended_children : forall {A} k (f : A -> dv) (g : A -> list str) l, (forall a, In a l -> g a <> []) -> (forall a, In a l -> ended (g a) = sp (S k) ++ deep x (S k) (f a) ++ [44; 10]) ->
    ended (entries k (lit "children: ") (flat_map g l)) = sp k ++ lit "children: " ++ deep x k (DList (map f l)) ++ [44; 10].
  Proof.
    intros A k f g l Ne H. rewrite (ended_entries k (lit "children: ") g l Ne). destruct l as [|a l]; [reflexivity|]. set (m := a :: l) in *.
    assert (X : forall m, (forall a, In a m -> ended (g a) = sp (S k) ++ deep x (S k) (f a) ++ [44; 10]) -> flat_map (fun a => ended (g a)) m = flat_map (fun v => sp (S k) ++ deep x (S k) v ++ [44; 10]) (map f m)).
    { induction m0 as [|b m0 IH]; intro Hm; [reflexivity|]. cbn [flat_map map]. rewrite (Hm b (or_introl eq_refl)), IH; [reflexivity|]. intros y I. apply Hm. right. exact I. }
    rewrite (X m H). change (deep x k (DList (map f m))) with (lit "[" ++ [10] ++ flat_map (fun v => sp (S k) ++ deep x (S k) v ++ [44; 10]) (map f m) ++ sp k ++ lit "]"). rewrite <- !app_assoc. reflexivity.
  Qed.
  Lemma ended_alternation : forall {A} k (f : A -> dv) (g : A -> list str) l, (forall a, In a l -> g a <> []) -> (forall a, In a l -> ended (g a) = sp (2 + k) ++ deep x (2 + k) (f a) ++ [44; 10]) ->
    ended (block k (lit "ComponentAlternation {") (entries (1 + k) (lit "children: ") (flat_map g l)) (lit "},")) =
    sp k ++ deep x k (DStruct (lit "ComponentAlternation") [(lit "children", DList (map f l))]) ++ [44; 10].
  Proof.
    intros A k f g l Ne H. rewrite ended_block, (ended_children (1 + k) f g l Ne H).
    change (deep x k (DStruct (lit "ComponentAlternation") [(lit "children", DList (map f l))])) with
      (lit "ComponentAlternation {" ++ [10] ++ ((sp (1 + k) ++ lit "children" ++ lit ": " ++ deep x (1 + k) (DList (map f l)) ++ [44; 10]) ++ []) ++ sp k ++ lit "}").
    rewrite <- !app_assoc. cbn [app]. rewrite <- ?app_assoc. reflexivity.
  Qed.
  Lemma ended_outline : forall c k post, ended (outline (debug_str x) show k c post) = sp k ++ deep x k (dv_component c) ++ post ++ [10].
  Proof.
    apply (comp_all (fun c => forall k post, ended (outline (debug_str x) show k c post) = sp k ++ deep x k (dv_component c) ++ post ++ [10])
      (fun s => forall k, ended (outline_seqn (debug_str x) show k s) = sp k ++ deep x k (dv_seqn s) ++ [44; 10])).
    - intros bs F k post. rewrite Forall_forall in F. cbn [outline]. rewrite ended_block, (ended_alternation (1 + k) (fun s => dv_seqn s)).
      + match goal with |- context [deep x k ?d] => change (deep x k d) with (lit "Alternation(" ++ [10] ++ ((sp (1 + k) ++ deep x (1 + k) (DStruct (lit "ComponentAlternation") [(lit "children", DList (map (fun s => dv_seqn s) bs))]) ++ [44; 10]) ++ []) ++ sp k ++ lit ")") end.
        rewrite <- !app_assoc. cbn [app]. rewrite <- ?app_assoc. reflexivity.
      + intros a _. apply outline_seqn_some.
      + intros a I. apply (F a I).
    - intros c k post. cbn [outline]. rewrite ended_block, ended_class.
      change (deep x k (dv_component (CClass c))) with (lit "Class(" ++ [10] ++ ((sp (1 + k) ++ deep x (1 + k) (dv_class c) ++ [44; 10]) ++ []) ++ sp k ++ lit ")"). rewrite <- !app_assoc. cbn [app]. rewrite <- ?app_assoc. reflexivity.
    - intros s H k post. cbn [outline]. rewrite ended_block, H.
      change (deep x k (dv_component (CSequence s))) with (lit "Sequence(" ++ [10] ++ ((sp (1 + k) ++ deep x (1 + k) (dv_seqn s) ++ [44; 10]) ++ []) ++ sp k ++ lit ")"). rewrite <- !app_assoc. cbn [app]. rewrite <- ?app_assoc. reflexivity.
    - intros ch alt ci cn F G k. rewrite Forall_forall in F. cbn [outline_seqn]. rewrite ended_block, !ended_app.
      rewrite (ended_option (1 + k) (lit "capture_index") dv_number show ci) by reflexivity. rewrite (ended_option (1 + k) (lit "capture_name") DText (debug_str x) cn) by reflexivity.
      rewrite (ended_children (1 + k) (fun c => dv_component c)); [|intros a _; apply outline_some|intros a I; apply (F a I)].
      match goal with |- context [deep x k ?d] => change (deep x k d) with (lit "ComponentSequence {" ++ [10] ++ (
        (sp (1 + k) ++ lit "children" ++ lit ": " ++ deep x (1 + k) (DList (map (fun c => dv_component c) ch)) ++ [44; 10]) ++
        (sp (1 + k) ++ lit "alternation" ++ lit ": " ++ deep x (1 + k) (match alt with None => DWord (lit "None") | Some bs => DTuple (lit "Some") [DStruct (lit "ComponentAlternation") [(lit "children", DList (map (fun s => dv_seqn s) bs))]] end) ++ [44; 10]) ++
        (sp (1 + k) ++ lit "capture_index" ++ lit ": " ++ deep x (1 + k) (dv_option dv_number ci) ++ [44; 10]) ++
        (sp (1 + k) ++ lit "capture_name" ++ lit ": " ++ deep x (1 + k) (dv_option DText cn) ++ [44; 10]) ++ []) ++ sp k ++ lit "}") end.
      destruct alt as [bs|].
      + specialize (G bs eq_refl). rewrite Forall_forall in G. rewrite ended_block, (ended_alternation (2 + k) (fun s => dv_seqn s)); [|intros a _; apply outline_seqn_some|intros a I; apply (G a I)].
        match goal with |- context [deep x (1 + k) (DTuple (lit "Some") [?d])] => change (deep x (1 + k) (DTuple (lit "Some") [d])) with (lit "Some(" ++ [10] ++ ((sp (2 + k) ++ deep x (2 + k) d ++ [44; 10]) ++ []) ++ sp (1 + k) ++ lit ")") end.
        rewrite <- !app_assoc. cbn [app]. rewrite <- ?app_assoc. reflexivity.
      + cbn [ended flat_map deep]. unfold ln. fold (sp (1 + k)). rewrite <- !app_assoc. cbn [app]. rewrite <- ?app_assoc. reflexivity.
  Qed.
End Lines.
