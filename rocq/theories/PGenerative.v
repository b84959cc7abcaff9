(** The exhaustive generator enumerates the leaves of its tree. *)
From Coq Require FinFun.
From Verif Require Export SpecGenerative.

Set Implicit Arguments.

(** ** The leaves, in order *)
Fixpoint leaves_of {A} (g : gen A) : list (list nat * A) :=
  match g with
  | GReturn a => [([], a)]
  | GPick max go_on => flat_map (fun i => map (fun x => (i :: fst x, snd x)) (leaves_of (go_on i))) (seq 0 max)
  | GPanic _ => []
  end.

Lemma leaves_chooses {A} (g : gen A) : forall picks a, In (picks, a) (leaves_of g) <-> chooses g picks a.
Proof.
  induction g as [b|max go_on IH|p]; intros picks a; cbn [leaves_of].
  - split.
    + intros [E|[]]. injection E as <- <-. constructor.
    + intros H. inversion H; subst. left. reflexivity.
  - rewrite in_flat_map. split.
    + intros (i & Hi & H). apply in_map_iff in H as ([p b] & E & H). cbn [fst snd] in E. injection E as <- <-.
      apply in_seq in Hi. constructor; [lia|]. apply IH. exact H.
    + intros H. inversion H; subst. exists i. split; [apply in_seq; lia|]. apply in_map_iff. exists (picks0, a). split; [reflexivity|]. apply IH. assumption.
  - split; [intros []|intros H; inversion H].
Qed.

(** Strictly increasing. *)
Fixpoint increasing {A} (l : list (list nat * A)) : Prop :=
  match l with
  | [] => True
  | x :: l' => (forall y, In y l' -> before (fst x) (fst y)) /\ increasing l'
  end.

Lemma increasing_app {A} (l1 l2 : list (list nat * A)) : increasing l1 -> increasing l2 ->
  (forall x y, In x l1 -> In y l2 -> before (fst x) (fst y)) -> increasing (l1 ++ l2).
Proof.
  induction l1 as [|x l1 IH]; intros H1 H2 H; [exact H2|]. destruct H1 as [H1 H1']. split.
  - intros y Hy. apply in_app_iff in Hy as [Hy|Hy]; [auto|apply H; [left; reflexivity|exact Hy]].
  - apply IH; auto. intros a b Ha Hb. apply H; [right; exact Ha|exact Hb].
Qed.
Lemma increasing_map {A} i (l : list (list nat * A)) : increasing l -> increasing (map (fun x => (i :: fst x, snd x)) l).
Proof.
  induction l as [|x l IH]; intros H; [exact I|]. destruct H as [H1 H2]. split; [|auto].
  intros y Hy. apply in_map_iff in Hy as (z & <- & Hz). cbn [fst]. apply before_later. auto.
Qed.
Lemma leaves_increasing {A} (g : gen A) : increasing (leaves_of g).
Proof.
  induction g as [b|max go_on IH|p]; cbn [leaves_of].
  - split; [intros y []|exact I].
  - generalize 0. induction max as [|max IHm]; intros k; [exact I|]. cbn [seq flat_map]. apply increasing_app; [apply increasing_map; apply IH|apply IHm|].
    intros x y Hx Hy. apply in_map_iff in Hx as (x' & <- & _). apply in_flat_map in Hy as (j & Hj & Hy).
    apply in_map_iff in Hy as (y' & <- & _). apply in_seq in Hj. apply before_here. lia.
  - exact I.
Qed.
Lemma before_irrefl p : ~ before p p.
Proof. induction p as [|i p IH]; intros H; inversion H; subst; [lia|auto]. Qed.
Lemma increasing_nodup {A} (l : list (list nat * A)) : increasing l -> NoDup (map fst l).
Proof.
  induction l as [|x l IH]; intros H; [constructor|]. destruct H as [H1 H2]. cbn [map]. constructor; [|auto].
  intros Hin. apply in_map_iff in Hin as (y & E & Hy). apply H1 in Hy. rewrite E in Hy. exact (before_irrefl Hy).
Qed.

(** ** The stack of the iterator *)

(** A stack that is a path in the tree, with the maxima of the nodes. *)
Inductive on_path {A} : gen A -> list (nat * nat) -> Prop :=
| on_nil g : on_path g []
| on_cons max go_on i s : i < max -> on_path (go_on i) s -> on_path (GPick max go_on) ((i, max) :: s).
Inductive full_path {A} : gen A -> list (nat * nat) -> Prop :=
| full_nil a : full_path (GReturn a) []
| full_cons max go_on i s : i < max -> full_path (go_on i) s -> full_path (GPick max go_on) ((i, max) :: s).

Lemma full_on {A} (g : gen A) s : full_path g s -> on_path g s.
Proof. induction 1; constructor; auto. Qed.

(** The leaves from [s] on. *)
Fixpoint from {A} (g : gen A) (s : list (nat * nat)) {struct s} : list (list nat * A) :=
  match s with
  | [] => leaves_of g
  | (i, _) :: s' =>
      match g with
      | GPick max go_on =>
          map (fun x => (i :: fst x, snd x)) (from (go_on i) s') ++
          flat_map (fun i => map (fun x => (i :: fst x, snd x)) (leaves_of (go_on i))) (seq (S i) (max - S i))
      | _ => []
      end
  end.

(** Running the generator gives the next leaf. *)
Lemma generate_from {A} (g : gen A) : sound g -> forall pre s, on_path g s ->
  exists full a rest, generate g (GenAll (length pre) (pre ++ s) false) = Ok (a, GenAll (length (pre ++ full)) (pre ++ full) false) /\
    full_path g full /\ from g s = (map fst full, a) :: rest /\ from g full = from g s.
Proof.
  induction 1 as [b|max go_on Hm Hs IH]; intros pre s Hp.
  - inversion Hp; subst. exists [], b, []. cbn [generate]. rewrite app_nil_r. repeat split. constructor.
  - cbn [generate]. unfold pick_next. cbn [ga_stack ga_index ga_done]. inversion Hp as [?|? ? i s' Hi Hp']; subst.
    + rewrite app_nil_r. rewrite (proj2 (nth_error_None _ _)) by lia. rewrite Nat.eqb_refl. cbn [bind].
      destruct (IH 0 Hm (pre ++ [(0, max)]) [] (on_nil _)) as (full & a & rest & E & F & R1 & R2).
      rewrite app_nil_r in E. rewrite app_length in E. cbn [length] in E.
      exists ((0, max) :: full), a. eexists. split.
      { rewrite E. rewrite <- app_assoc. reflexivity. }
      split; [constructor; auto|]. cbn [from leaves_of map fst] in *.
      replace (flat_map (fun i => map (fun x => (i :: fst x, snd x)) (leaves_of (go_on i))) (seq 0 max))
        with (map (fun x => (0 :: fst x, snd x)) (leaves_of (go_on 0)) ++
              flat_map (fun i => map (fun x => (i :: fst x, snd x)) (leaves_of (go_on i))) (seq 1 (max - 1)))
        by (destruct max; [lia|]; cbn [seq flat_map]; rewrite Nat.sub_succ, Nat.sub_0_r; reflexivity).
      rewrite R2, R1. split; reflexivity.
    + rewrite nth_error_app2 by lia. rewrite Nat.sub_diag. cbn [nth_error bind].
      destruct (IH i Hi (pre ++ [(i, max)]) s' Hp') as (full & a & rest & E & F & R1 & R2).
      rewrite app_length in E. cbn [length] in E. rewrite <- !app_assoc in E. cbn [app] in E.
      exists ((i, max) :: full), a. eexists. split; [exact E|]. split; [constructor; auto|].
      cbn [from map fst]. rewrite R2, R1. split; reflexivity.
Qed.

(** [advance], from the bottom of the stack. *)
Fixpoint adv (s : list (nat * nat)) : option (list (nat * nat)) :=
  match s with
  | [] => None
  | (i, m) :: s' =>
      match adv s' with
      | Some s'' => Some ((i, m) :: s'')
      | None => if i + 1 <? m then Some [(i + 1, m)] else None
      end
  end.

Lemma advance_loop_app t1 t2 : advance_loop (t1 ++ t2) =
  match advance_loop t1 with Some t => Some (t ++ t2) | None => advance_loop t2 end.
Proof.
  induction t1 as [|[n m] t1 IH]; [reflexivity|]. cbn [app advance_loop]. destruct (n + 1 <? m); [reflexivity|exact IH].
Qed.
Lemma adv_loop s : advance_loop (rev s) = match adv s with Some t => Some (rev t) | None => None end.
Proof.
  induction s as [|[i m] s IH]; [reflexivity|]. cbn [rev adv]. rewrite advance_loop_app, IH.
  destruct (adv s) as [t|]; [reflexivity|]. cbn [advance_loop]. destruct (i + 1 <? m); reflexivity.
Qed.

Lemma adv_from {A} (g : gen A) s : full_path g s -> forall x rest, from g s = x :: rest ->
  match adv s with
  | Some s' => on_path g s' /\ from g s' = rest
  | None => rest = []
  end.
Proof.
  induction 1 as [a|max go_on i s Hi Hf IH]; intros x rest H.
  - cbn [from leaves_of] in H. injection H as _ <-. reflexivity.
  - cbn [from] in H. cbn [adv].
    destruct (from (go_on i) s) as [|y rest'] eqn:E.
    { exfalso. clear - E Hf. revert E. induction Hf as [a|mx g j s Hj Hf IH]; cbn [from leaves_of]; intros E; [discriminate|].
      destruct (from (g j) s); [auto|discriminate]. }
    specialize (IH _ _ eq_refl). cbn [map] in H. injection H as _ <-. destruct (adv s) as [s'|].
    + destruct IH as [I1 I2]. split; [constructor; auto|]. cbn [from]. rewrite I2. reflexivity.
    + subst rest'. cbn [map app]. destruct (Nat.ltb_spec (i + 1) max) as [Hl|Hl].
      * split; [constructor; [lia|constructor]|]. cbn [from]. replace (i + 1) with (S i) by lia.
        replace (max - S i) with (S (max - S (S i))) by lia. reflexivity.
      * replace (max - S i) with 0 by lia. reflexivity.
Qed.

Lemma collect_from {A} (g : gen A) : sound g -> forall rest s x, on_path g s -> from g s = x :: rest ->
  forall fuel, length rest + 1 < fuel -> gen_collect fuel g (GenAll 0 s false) = Ok (map snd (x :: rest)).
Proof.
  intros Hs. induction rest as [|y rest IH]; intros s x Hp H [|fuel] Hf; cbn [length] in Hf; try lia; cbn [gen_collect]; unfold gen_next; cbn [ga_done].
  all: destruct (@generate_from _ g Hs [] s Hp) as (full & a & rest' & E & F & R1 & R2); cbn [length app] in E; rewrite E; cbn [bind].
  all: unfold advance; cbn [ga_stack ga_done]; rewrite adv_loop.
  all: rewrite H in R1; injection R1 as -> <-; rewrite H in R2; pose proof (adv_from F R2) as Ha; destruct (adv full) as [t|].
  - destruct Ha as [Ha1 Ha2]. exfalso. clear - Ha1 Ha2 Hs. revert Ha2.
    destruct (@generate_from _ g Hs [] t Ha1) as (f & a & r & _ & _ & E & _). rewrite E. discriminate.
  - destruct fuel; [lia|]. reflexivity.
  - destruct Ha as [Ha1 Ha2]. rewrite rev_involutive. rewrite (IH t y Ha1 Ha2) by lia. reflexivity.
  - discriminate.
Qed.

Lemma leaves_some {A} (g : gen A) : sound g -> exists x rest, leaves_of g = x :: rest.
Proof.
  intros Hs. destruct (@generate_from _ g Hs [] [] (on_nil g)) as (f & a & r & _ & _ & E & _). eauto.
Qed.

Lemma collect_leaves {A} (g : gen A) : sound g ->
  forall fuel, length (leaves_of g) < fuel -> gen_collect fuel g gen_all_new = Ok (map snd (leaves_of g)).
Proof.
  intros Hs fuel Hf. destruct (leaves_some Hs) as (x & rest & E). unfold gen_all_new. rewrite E in *. cbn [length] in Hf.
  apply (@collect_from _ g Hs rest [] x); [constructor|exact E|lia].
Qed.

(** ** The values *)
Definition values {A} (g : gen A) : list A := map snd (leaves_of g).

Lemma values_pick {A} max (go_on : nat -> gen A) : values (GPick max go_on) = flat_map (fun i => values (go_on i)) (seq 0 max).
Proof.
  unfold values. cbn [leaves_of]. induction (seq 0 max) as [|i l IH]; [reflexivity|]. cbn [flat_map]. rewrite map_app, IH, map_map. reflexivity.
Qed.
Lemma values_bind {A B} (g : gen A) (k : A -> gen B) : values (gbind g k) = flat_map (fun a => values (k a)) (values g).
Proof.
  induction g as [a|max go_on IH|p]; cbn [gbind].
  - unfold values at 2. cbn. rewrite app_nil_r. reflexivity.
  - rewrite !values_pick. induction (seq 0 max) as [|i l IHl]; [reflexivity|]. cbn [flat_map]. rewrite flat_map_app, IHl, IH. reflexivity.
  - reflexivity.
Qed.
Lemma sound_bind {A B} (g : gen A) (k : A -> gen B) : sound g -> (forall a, sound (k a)) -> sound (gbind g k).
Proof. intros H Hk. induction H; cbn [gbind]; [apply Hk|constructor; auto]. Qed.

Lemma NoDup_app' {A} (l1 l2 : list A) : NoDup l1 -> NoDup l2 -> (forall x, In x l1 -> In x l2 -> False) -> NoDup (l1 ++ l2).
Proof.
  induction l1 as [|x l1 IH]; intros H1 H2 H; [exact H2|]. inversion H1; subst. cbn. constructor.
  - rewrite in_app_iff. intros [Hx|Hx]; [auto|]. eapply H; [left; reflexivity|exact Hx].
  - apply IH; auto. intros y Hy Hy'. eapply H; [right; exact Hy|exact Hy'].
Qed.
Lemma NoDup_flat_map' {A B} (f : A -> list B) l : NoDup l -> (forall a, In a l -> NoDup (f a)) ->
  (forall a b x, In a l -> In b l -> In x (f a) -> In x (f b) -> a = b) -> NoDup (flat_map f l).
Proof.
  induction l as [|a l IH]; intros H1 H2 H3; [constructor|]. cbn [flat_map]. inversion H1; subst. apply NoDup_app'.
  - apply H2. left. reflexivity.
  - apply IH; auto; intros; [apply H2; right; auto|eapply H3; eauto; right; auto].
  - intros x Hx Hx'. apply in_flat_map in Hx' as (b & Hb & Hxb).
    assert (a = b) by (eapply H3; eauto; [left; reflexivity|right; auto]). subst b. contradiction.
Qed.

(** ** The notations *)
Lemma flat_map_single {A B} (f : A -> B) l : flat_map (fun a => [f a]) l = map f l.
Proof. induction l; cbn; congruence. Qed.

Lemma values_map {A B} (g : gen A) (f : A -> B) : values (gbind g (fun x => GReturn (f x))) = map f (values g).
Proof. rewrite values_bind. apply flat_map_single. Qed.

Lemma made_pos k x : made_of k x -> 1 <= k.
Proof. induction 1; lia. Qed.
Lemma made_det x : forall k l, made_of k x -> made_of l x -> k = l.
Proof.
  intros k l H. revert l. induction H; intros l' H'; inversion H'; subst; auto.
Qed.

Definition two_of (op : notation unit unit -> notation unit unit -> notation unit unit) (v : nat -> list (notation unit unit)) (size : nat) :=
  flat_map (fun i => flat_map (fun x => map (op x) (v (size - (i + 1)))) (v (i + 1))) (seq 0 (size - 1)).

Lemma notation_gen_eq fuel size : 2 < size -> values (notation_gen (S fuel) size) =
  let v := fun k => values (notation_gen fuel k) in
  two_of n_add v (size - 1) ++ two_of n_or v (size - 1) ++ map Flat (v (size - 1)) ++ map (n_shr 2) (v (size - 1)).
Proof.
  intros H. cbn [notation_gen]. rewrite (proj2 (Nat.eqb_neq size 0)), (proj2 (Nat.eqb_neq size 1)), (proj2 (Nat.eqb_neq size 2)) by lia.
  rewrite values_pick. cbv zeta. cbn [seq flat_map]. rewrite app_nil_r, !values_pick.
  assert (E : forall op, flat_map (fun i => values (gbind (notation_gen fuel (i + 1)) (fun left =>
      gbind (notation_gen fuel (size - 1 - (i + 1))) (fun right => GReturn (op left right))))) (seq 0 (size - 1 - 1)) =
      two_of op (fun k => values (notation_gen fuel k)) (size - 1)).
  { intros op. unfold two_of. apply flat_map_ext. intros i. rewrite values_bind. apply flat_map_ext. intros x.
    rewrite values_bind. apply flat_map_single. }
  rewrite !E. rewrite !values_map. reflexivity.
Qed.

Lemma notation_gen_spec fuel : forall size, 0 < size <= fuel ->
  sound (notation_gen fuel size) /\ NoDup (values (notation_gen fuel size)) /\
  forall x, In x (values (notation_gen fuel size)) <-> made_of size x.
Proof.
  induction fuel as [|fuel IH]; intros size Hsz; [lia|].
  destruct (Nat.eq_dec size 1) as [->|H1].
  { split; [|split].
    - cbn. constructor; [lia|]. intros i Hi. do 6 (destruct i as [|i]; [constructor|]). lia.
    - cbn. repeat (constructor; [cbn; intuition discriminate|]). constructor.
    - intros x. cbn. split.
      + intros [<-|[<-|[<-|[<-|[<-|[<-|[]]]]]]]; constructor.
      + intros H. inversion H; subst; auto 10; match goal with H : made_of _ _ |- _ => apply made_pos in H end; lia. }
  destruct (Nat.eq_dec size 2) as [->|H2].
  { destruct (IH 1 ltac:(lia)) as (I1 & I2 & I3).
    assert (E : values (notation_gen (S fuel) 2) = map Flat (values (notation_gen fuel 1)) ++ map (n_shr 2) (values (notation_gen fuel 1))).
    { cbn [notation_gen Nat.eqb]. rewrite values_pick. cbn [seq flat_map]. rewrite app_nil_r, !values_map. reflexivity. }
    split; [|split].
    - cbn [notation_gen Nat.eqb]. constructor; [lia|]. intros [|[|i]] Hi; [| |lia]; apply sound_bind; auto; intros; constructor.
    - rewrite E. apply NoDup_app'.
      + apply FinFun.Injective_map_NoDup; [intros a b [= ->]; reflexivity|exact I2].
      + apply FinFun.Injective_map_NoDup; [intros a b [= ->]; reflexivity|exact I2].
      + intros x Hx Hy. apply in_map_iff in Hx as (a & <- & _). apply in_map_iff in Hy as (b & Eb & _). discriminate.
    - intros x. rewrite E, in_app_iff, !in_map_iff. split.
      + intros [(a & <- & Ha)|(a & <- & Ha)]; apply I3 in Ha; [exact (made_flat Ha)|exact (made_nest Ha)].
      + intros H. inversion H; subst.
        * left. eexists. split; [reflexivity|]. apply I3. assumption.
        * right. eexists. split; [reflexivity|]. apply I3. assumption.
        * exfalso. match goal with Ha : made_of _ x0, Hb : made_of _ y |- _ => apply made_pos in Ha; apply made_pos in Hb end. lia.
        * exfalso. match goal with Ha : made_of _ x0, Hb : made_of _ y |- _ => apply made_pos in Ha; apply made_pos in Hb end. lia. }
  assert (H3 : 2 < size) by lia. destruct (IH (size - 1) ltac:(lia)) as (I1 & I2 & I3).
  assert (In2 : forall op x, In x (two_of op (fun k => values (notation_gen fuel k)) (size - 1)) <->
     exists k l a b, made_of k a /\ made_of l b /\ k + l = size - 1 /\ op a b = x).
  { intros op x. unfold two_of. rewrite in_flat_map. split.
    - intros (i & Hi & Hx). apply in_seq in Hi. apply in_flat_map in Hx as (a & Ha & Hx). apply in_map_iff in Hx as (b & <- & Hb).
      apply IH in Ha; [|lia]. apply IH in Hb; [|lia]. exists (i + 1), (size - 1 - (i + 1)), a, b. repeat split; auto. lia.
    - intros (k & l & a & b & Ha & Hb & E & <-). pose proof (made_pos Ha). pose proof (made_pos Hb). exists (k - 1). split; [apply in_seq; lia|].
      replace (k - 1 + 1) with k by lia. replace (size - 1 - k) with l by lia. apply in_flat_map. exists a. split; [apply IH; auto; lia|].
      apply in_map. apply IH; auto. lia. }
  assert (Nd2 : forall op, (forall a b a' b', op a b = op a' b' -> a = a' /\ b = b') -> NoDup (two_of op (fun k => values (notation_gen fuel k)) (size - 1))).
  { intros op Hop. unfold two_of. apply NoDup_flat_map'.
    - apply seq_NoDup.
    - intros i Hi. apply in_seq in Hi. apply NoDup_flat_map'.
      + apply IH. lia.
      + intros a _. apply FinFun.Injective_map_NoDup; [intros b b' Eb; apply Hop in Eb; tauto|]. apply IH. lia.
      + intros a b x _ _ Ha Hb. apply in_map_iff in Ha as (c & <- & _). apply in_map_iff in Hb as (c' & Ec & _). apply Hop in Ec. symmetry. tauto.
    - intros i j x Hi Hj Hx Hy. apply in_seq in Hi, Hj. apply in_flat_map in Hx as (a & Ha & Hx). apply in_flat_map in Hy as (a' & Ha' & Hy).
      apply in_map_iff in Hx as (b & <- & _). apply in_map_iff in Hy as (b' & Eb & _). apply Hop in Eb as [-> _].
      apply IH in Ha; [|lia]. apply IH in Ha'; [|lia]. pose proof (made_det Ha Ha'). lia. }
  assert (Oa : forall a b a' b' : notation unit unit, n_add a b = n_add a' b' -> a = a' /\ b = b') by (intros a b a' b' [= -> ->]; auto).
  assert (Oo : forall a b a' b' : notation unit unit, n_or a b = n_or a' b' -> a = a' /\ b = b') by (intros a b a' b' [= -> ->]; auto).
  rewrite notation_gen_eq by exact H3. cbv zeta. split; [|split].
  - cbn [notation_gen]. rewrite (proj2 (Nat.eqb_neq size 0)), (proj2 (Nat.eqb_neq size 1)), (proj2 (Nat.eqb_neq size 2)) by lia.
    constructor; [lia|]. intros [|[|[|[|i]]]] Hi; [| | | |lia].
    + constructor; [lia|]. intros i Hi'. destruct (IH (i + 1) ltac:(lia)) as [S1 _]. destruct (IH (size - 1 - (i + 1)) ltac:(lia)) as [S2 _].
      apply sound_bind; auto. intros a. apply sound_bind; auto. intros; constructor.
    + constructor; [lia|]. intros i Hi'. destruct (IH (i + 1) ltac:(lia)) as [S1 _]. destruct (IH (size - 1 - (i + 1)) ltac:(lia)) as [S2 _].
      apply sound_bind; auto. intros a. apply sound_bind; auto. intros; constructor.
    + apply sound_bind; auto. intros; constructor.
    + apply sound_bind; auto. intros; constructor.
  - apply NoDup_app'; [apply Nd2; exact Oa| |].
    { apply NoDup_app'; [apply Nd2; exact Oo| |].
      { apply NoDup_app'.
        - apply FinFun.Injective_map_NoDup; [intros a b [= ->]; reflexivity|exact I2].
        - apply FinFun.Injective_map_NoDup; [intros a b [= ->]; reflexivity|exact I2].
        - intros x Hx Hy. apply in_map_iff in Hx as (a & <- & _). apply in_map_iff in Hy as (b & Eb & _). discriminate. }
      intros x Hx Hy. apply In2 in Hx as (k & l & a & b & _ & _ & _ & <-). rewrite in_app_iff, !in_map_iff in Hy.
      destruct Hy as [(c & Ec & _)|(c & Ec & _)]; discriminate. }
    intros x Hx Hy. apply In2 in Hx as (k & l & a & b & _ & _ & _ & <-). rewrite !in_app_iff, In2, !in_map_iff in Hy.
    destruct Hy as [(k' & l' & a' & b' & _ & _ & _ & Ec)|[(c & Ec & _)|(c & Ec & _)]]; discriminate.
  - intros x. rewrite !in_app_iff, !In2, !in_map_iff. split.
    + intros [(k & l & a & b & Ha & Hb & E & <-)|[(k & l & a & b & Ha & Hb & E & <-)|[(a & <- & Ha)|(a & <- & Ha)]]].
      * replace size with (1 + k + l) by lia. constructor; auto.
      * replace size with (1 + k + l) by lia. constructor; auto.
      * apply I3 in Ha. replace size with (1 + (size - 1)) by lia. constructor; auto.
      * apply I3 in Ha. replace size with (1 + (size - 1)) by lia. exact (made_nest Ha).
    + intros H. inversion H; subst; try lia.
      * right; right; left. eexists. split; [reflexivity|]. apply I3. replace (1 + k - 1) with k by lia. assumption.
      * right; right; right. eexists. split; [reflexivity|]. apply I3. replace (1 + k - 1) with k by lia. assumption.
      * left. exists k, l, x0, y. repeat split; auto. lia.
      * right; left. exists k, l, x0, y. repeat split; auto. lia.
Qed.

(** ** The trees *)
Definition nodes_of (ks : list gtree) : nat := fold_right (fun k n => nodes k + n) 0 ks.
Lemma nodes_pos t : 1 <= nodes t.
Proof. destruct t. cbn. lia. Qed.

Lemma tree_gen_spec fuel :
  (forall size, 0 < size -> 2 * size <= fuel -> sound (tree_gen fuel size) /\ NoDup (values (tree_gen fuel size)) /\
     forall t, In t (values (tree_gen fuel size)) <-> nodes t = size) /\
  (forall size, 2 * size + 1 <= fuel -> sound (kids_gen fuel size) /\ NoDup (values (kids_gen fuel size)) /\
     forall ks, In ks (values (kids_gen fuel size)) <-> nodes_of ks = size).
Proof.
  induction fuel as [|fuel [IHt IHk]]; [split; intros; lia|]. split.
  - intros size Hp Hf. cbn [tree_gen]. rewrite (proj2 (Nat.eqb_neq size 0)) by lia.
    destruct (IHk (size - 1) ltac:(lia)) as (K1 & K2 & K3). split; [|split].
    + apply sound_bind; auto. intros; constructor.
    + rewrite values_map. apply FinFun.Injective_map_NoDup; [intros a b [= ->]; reflexivity|exact K2].
    + intros [ks]. rewrite values_map, in_map_iff. split.
      * intros (ks' & [= ->] & Hk). apply K3 in Hk. cbn. fold (nodes_of ks). lia.
      * intros H. exists ks. split; auto. apply K3. cbn in H. fold (nodes_of ks) in H. lia.
  - intros size Hf. cbn [kids_gen]. destruct (Nat.eqb_spec size 0) as [->|Hz].
    { split; [constructor|]. split; [repeat constructor; intros []|]. intros ks. cbn. split.
      - intros [<-|[]]. reflexivity.
      - destruct ks as [|k ks]; [auto|]. cbn. pose proof (nodes_pos k). lia. }
    assert (E : values (GPick size (fun i => gbind (tree_gen fuel (i + 1)) (fun child =>
        gbind (kids_gen fuel (size - (i + 1))) (fun children => GReturn (child :: children))))) =
      flat_map (fun i => flat_map (fun c => map (cons c) (values (kids_gen fuel (size - (i + 1))))) (values (tree_gen fuel (i + 1)))) (seq 0 size)).
    { rewrite values_pick. apply flat_map_ext. intros i. rewrite values_bind. apply flat_map_ext. intros c. rewrite values_bind. apply flat_map_single. }
    cbv zeta. rewrite E. clear E. split; [|split].
    + constructor; [lia|]. intros i Hi. destruct (IHt (i + 1) ltac:(lia) ltac:(lia)) as (T1 & _). destruct (IHk (size - (i + 1)) ltac:(lia)) as (K1 & _).
      apply sound_bind; auto. intros c. apply sound_bind; auto. intros; constructor.
    + apply NoDup_flat_map'; [apply seq_NoDup| |].
      * intros i Hi. apply in_seq in Hi. destruct (IHt (i + 1) ltac:(lia) ltac:(lia)) as (_ & T2 & _). destruct (IHk (size - (i + 1)) ltac:(lia)) as (_ & K2 & _).
        apply NoDup_flat_map'; auto.
        -- intros c _. apply FinFun.Injective_map_NoDup; [intros a b [= ->]; reflexivity|exact K2].
        -- intros c c' x _ _ Hx Hy. apply in_map_iff in Hx as (a & <- & _). apply in_map_iff in Hy as (b & [= -> _] & _). reflexivity.
      * intros i j x Hi Hj Hx Hy. apply in_seq in Hi, Hj. apply in_flat_map in Hx as (c & Hc & Hx). apply in_flat_map in Hy as (c' & Hc' & Hy).
        apply in_map_iff in Hx as (a & <- & _). apply in_map_iff in Hy as (b & [= -> _] & _).
        apply IHt in Hc; [|lia|lia]. apply IHt in Hc'; [|lia|lia]. lia.
    + intros ks. rewrite in_flat_map. split.
      * intros (i & Hi & Hx). apply in_seq in Hi. apply in_flat_map in Hx as (c & Hc & Hx). apply in_map_iff in Hx as (a & <- & Ha).
        apply IHt in Hc; [|lia|lia]. apply IHk in Ha; [|lia]. cbn. fold (nodes_of a). lia.
      * intros H. destruct ks as [|k ks]; [cbn in H; lia|]. cbn in H. fold (nodes_of ks) in H. pose proof (nodes_pos k).
        exists (nodes k - 1). split; [apply in_seq; lia|]. replace (nodes k - 1 + 1) with (nodes k) by lia.
        apply in_flat_map. exists k. split; [apply IHt; auto; lia|]. apply in_map. apply IHk; lia.
Qed.
