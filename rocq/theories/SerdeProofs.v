(** * SerdeProofs.v - lemmas on the deserializers *)

From Coq Require Import List String ZArith Arith Bool Lia Permutation Reals Lra.
From Verif Require Import Scalar Linalg Bundles Extrinsics Perspective Orthographic Camera Serde SpecSerde.
Import ListNotations.
Local Open Scope string_scope.

Lemma dbind_ok {A B} (x : dres A) (f : A -> dres B) b :
  dbind x f = DOk b <-> exists a, x = DOk a /\ f a = DOk b.
Proof.
  destruct x; cbn; split.
  - intros H; eexists; split; [reflexivity|exact H].
  - intros (a' & E & H). injection E as ->. exact H.
  - discriminate.
  - intros (a' & E & _). discriminate.
Qed.

Lemma ok_or_ok {A} (o : option A) e a : ok_or o e = DOk a <-> o = Some a.
Proof. destruct o; cbn; split; intros H; try discriminate; injection H as ->; reflexivity. Qed.

Section P.
Context {T : Type} {O : Ops T}.

(** ** Arrays of numbers *)
Lemma array_visit_seq_ok cap l : forall curr out r,
  array_visit_seq cap curr out l = DOk r <->
  exists ts, r = (out ++ ts)%list /\ Forall2 (fun v t => de_num v = DOk t) l ts /\ curr + List.length l = cap.
Proof.
  induction l as [|v l IH]; intros curr out r; cbn [array_visit_seq].
  - destruct (Nat.eqb_spec curr cap) as [E|E]; split.
    + intros H. injection H as <-. exists []. rewrite app_nil_r. cbn. repeat split; [constructor|lia].
    + intros (ts & -> & F & _). inversion F. now rewrite app_nil_r.
    + discriminate.
    + intros (ts & _ & _ & L). cbn in L. lia.
  - rewrite dbind_ok. split.
    + intros (t & Et & H). destruct (Nat.ltb_spec curr cap) as [L|L]; [|discriminate].
      apply IH in H. destruct H as (ts & -> & F & Lc). exists (t :: ts).
      rewrite <- app_assoc. cbn. repeat split; [constructor; assumption|lia].
    + intros (ts & -> & F & Lc). inversion F as [|? t ? ts' Et F']; subst ts. subst. exists t. split; [exact Et|].
      cbn [List.length]. destruct (Nat.ltb_spec curr (curr + S (List.length l))) as [L'|L']; [|lia].
      apply IH. exists ts'. rewrite <- app_assoc. cbn. repeat split; [assumption|lia].
Qed.

Lemma de_array_ok cap v r :
  de_array cap v = DOk r <->
  exists l, v = SSeq l /\ Forall2 (fun v t => de_num v = DOk t) l r /\ List.length l = cap.
Proof.
  destruct v; cbn [de_array]; try (split; [discriminate|intros (? & ? & _); discriminate]).
  rewrite array_visit_seq_ok. split.
  - intros (ts & -> & F & L). exists l. auto.
  - intros (l' & E & F & L). injection E as <-. exists r. auto.
Qed.

Lemma F2_length {A B} (R : A -> B -> Prop) l l' : Forall2 R l l' -> List.length l = List.length l'.
Proof. induction 1; cbn; congruence. Qed.

Lemma de_v3_ok v p :
  de_v3 v = DOk p <->
  exists a b c, v = SSeq [a; b; c] /\ de_num a = DOk (vx p) /\ de_num b = DOk (vy p) /\ de_num c = DOk (vz p).
Proof.
  unfold de_v3. rewrite dbind_ok. split.
  - intros (r & H & E). apply de_array_ok in H. destruct H as (l & -> & F & L).
    destruct l as [|a [|b [|c [|]]]]; try discriminate L.
    inversion F as [|? ta ? ? Ea F1]; subst. inversion F1 as [|? tb ? ? Eb F2]; subst.
    inversion F2 as [|? tc ? ? Ec F3]; subst. inversion F3; subst.
    injection E as <-. exists a, b, c. auto.
  - intros (a & b & c & -> & Ea & Eb & Ec). exists [vx p; vy p; vz p]. split; [|destruct p; reflexivity].
    apply de_array_ok. exists [a; b; c]. repeat constructor; assumption.
Qed.

Lemma de_quat_ok v q :
  de_quat v = DOk q <->
  exists i j k w, v = SSeq [i; j; k; w] /\ de_num i = DOk (qi q) /\ de_num j = DOk (qj q) /\
    de_num k = DOk (qk q) /\ de_num w = DOk (qw q).
Proof.
  unfold de_quat. rewrite dbind_ok. split.
  - intros (r & H & E). apply de_array_ok in H. destruct H as (l & -> & F & L).
    destruct l as [|a [|b [|c [|d [|]]]]]; try discriminate L.
    inversion F as [|? ta ? ? Ea F1]; subst. inversion F1 as [|? tb ? ? Eb F2]; subst.
    inversion F2 as [|? tc ? ? Ec F3]; subst. inversion F3 as [|? td ? ? Ed F4]; subst. inversion F4; subst.
    injection E as <-. exists a, b, c, d. auto.
  - intros (a & b & c & d & -> & Ea & Eb & Ec & Ed). exists [qi q; qj q; qk q; qw q].
    split; [|destruct q; reflexivity].
    apply de_array_ok. exists [a; b; c; d]. repeat constructor; assumption.
Qed.

(** ** Derived structs *)
Fixpoint fnames {X} (f : fields (T := T) X) : list string :=
  match f with FNil => [] | FCons n _ r => n :: fnames r end.

(** the state after the loop, given the state before *)
Definition field_res {A} (de : sval T -> dres A) (vs : list (sval T)) (s s' : option A) : Prop :=
  match vs with
  | [] => s' = s
  | [v] => s = None /\ exists x, de v = DOk x /\ s' = Some x
  | _ => False
  end.
Fixpoint state_res {X} (f : fields (T := T) X) (es : list (string * sval T))
  : fstate f -> fstate f -> Prop :=
  match f return fstate f -> fstate f -> Prop with
  | FNil => fun _ _ => True
  | FCons n de r => fun s s' => field_res de (values_of n es) (fst s) (fst s') /\ state_res r es (snd s) (snd s')
  end.

Lemma values_of_cons {A} n k (v : A) es :
  values_of n ((k, v) :: es) = if String.eqb k n then v :: values_of n es else values_of n es.
Proof. unfold values_of. cbn. destruct (String.eqb k n); reflexivity. Qed.

Lemma state_res_nil {X} (f : fields (T := T) X) s s' : state_res f [] s s' <-> s = s'.
Proof.
  induction f as [|A B n de r IH]; cbn.
  - destruct s, s'. split; auto.
  - destruct s as [a b], s' as [a' b']. cbn. rewrite IH. split.
    + intros [-> ->]. reflexivity.
    + intros E. injection E as -> ->. auto.
Qed.

Lemma fstep_none {X} (f : fields (T := T) X) k v s : fstep f k v s = None <-> ~ In k (fnames f).
Proof.
  induction f as [|A B n de r IH]; cbn.
  - tauto.
  - destruct (String.eqb_spec k n) as [E|E].
    + split; [discriminate|]. intros H. exfalso. apply H. auto.
    + destruct (fstep r k v (snd s)) as [rs|] eqn:Er.
      * split; [discriminate|]. intros H. exfalso.
        assert (Some rs = None); [|discriminate]. rewrite <- Er. apply IH. tauto.
      * split; [|reflexivity]. intros _ [->|H]; [congruence|]. revert H. now apply (IH (snd s)).
Qed.

(** a key which is not a field does not matter *)
Lemma state_res_skip {X} (f : fields (T := T) X) k v es s s' : ~ In k (fnames f) ->
  (state_res f ((k, v) :: es) s s' <-> state_res f es s s').
Proof.
  induction f as [|A B n de r IH]; cbn [state_res fnames]; [tauto|].
  intros H. rewrite values_of_cons. destruct (String.eqb_spec k n) as [->|E]; [exfalso; apply H; cbn; auto|].
  rewrite IH; [tauto|]. intros H'; apply H; cbn; auto.
Qed.

Lemma fstep_some {X} (f : fields (T := T) X) k v es s s' : NoDup (fnames f) -> In k (fnames f) ->
  (state_res f ((k, v) :: es) s s' <->
   exists s1, fstep f k v s = Some (DOk s1) /\ state_res f es s1 s').
Proof.
  induction f as [|A B n de r IH]; cbn [state_res fnames fstep]; [cbn; tauto|].
  intros ND Hin. inversion ND as [|? ? Hn ND']; subst. rewrite values_of_cons.
  destruct (String.eqb_spec k n) as [->|E].
  - rewrite state_res_skip by exact Hn. destruct s as [a b], s' as [a' b']. cbn [fst snd]. split.
    + intros [Hf Hr]. destruct (values_of n es) as [|v' vs] eqn:Ev; cbn [field_res] in Hf; [|contradiction].
      destruct Hf as (-> & x & Ex & ->). exists (Some x, b). rewrite Ex. cbn. auto.
    + intros ([a1 b1] & E1 & Hf & Hr). cbn [fst snd] in *. injection E1 as E1.
      destruct a as [a|]; [discriminate|]. apply dbind_ok in E1. destruct E1 as (x & Ex & E1).
      injection E1 as <- <-. split; [|exact Hr].
      destruct (values_of n es) as [|v' [|]]; cbn [field_res] in *.
      * subst a'. split; [reflexivity|]. exists x. auto.
      * destruct Hf as [Hf _]. discriminate.
      * exact Hf.
  - assert (Hin' : In k (fnames r)) by (destruct Hin as [->|]; [congruence|assumption]).
    destruct s as [a b], s' as [a' b']. cbn [fst snd]. rewrite (IH b b' ND' Hin'). split.
    + intros (Hf & b1 & Es & Hr). exists (a, b1). rewrite Es. cbn. auto.
    + intros ([a1 b1] & Es & Hf & Hr). cbn [fst snd] in *.
      destruct (fstep r k v b) as [[b2|e]|] eqn:Er; try discriminate.
      cbn in Es. injection Es as <- <-. split; [exact Hf|]. exists b2. auto.
Qed.

Lemma floop_ok {X} (f : fields (T := T) X) es : NoDup (fnames f) -> forall s s',
  floop f es s = DOk s' <-> state_res f es s s'.
Proof.
  intros ND. induction es as [|[k v] es IH]; intros s s'; cbn [floop].
  - rewrite state_res_nil. split; [intros H; injection H; auto|intros ->; reflexivity].
  - destruct (in_dec string_dec k (fnames f)) as [Hin|Hin].
    + rewrite (fstep_some f k v es s s' ND Hin). destruct (fstep f k v s) as [[s1|e]|] eqn:Es.
      * cbn. rewrite IH. split; [intros H; exists s1; auto|].
        intros (s2 & E & H). injection E as <-. exact H.
      * cbn. split; [discriminate|]. intros (s2 & E & _). discriminate.
      * apply fstep_none in Es. contradiction.
    + rewrite state_res_skip by exact Hin. rewrite <- IH.
      assert (Es : fstep f k v s = None) by now apply fstep_none. rewrite Es. reflexivity.
Qed.

(** every field occurs exactly once with an accepted value *)
Fixpoint exactly_once {X} (f : fields (T := T) X) (es : list (string * sval T)) : X -> Prop :=
  match f in fields X return X -> Prop with
  | FNil => fun _ => True
  | FCons n de r => fun x =>
      (exists v, values_of n es = [v] /\ de v = DOk (fst x)) /\ exactly_once r es (snd x)
  end.

Lemma ffinish_ok {X} (f : fields (T := T) X) es x :
  (exists s, state_res f es (finit f) s /\ ffinish f s = DOk x) <-> exactly_once f es x.
Proof.
  induction f as [|A B n de r IH]; cbn [state_res exactly_once finit ffinish].
  - split; [auto|]. intros _. exists tt. destruct x. auto.
  - destruct x as [a b]. cbn [fst snd]. rewrite <- IH. split.
    + intros ([sa sb] & (Hf & Hr) & E). cbn [fst snd] in *. apply dbind_ok in E.
      destruct E as (a' & Ea & E). apply ok_or_ok in Ea. subst sa. apply dbind_ok in E.
      destruct E as (b' & Eb & E). injection E as -> ->. split; [|exists sb; auto].
      destruct (values_of n es) as [|v [|]]; cbn [field_res] in Hf; [discriminate| |contradiction].
      destruct Hf as (_ & x & Ex & E). injection E as ->. exists v. auto.
    + intros ((v & Ev & Ea) & s & Hs & Es). exists (Some a, s). rewrite Ev. cbn. split.
      * split; [|exact Hs]. split; [reflexivity|]. exists a. auto.
      * rewrite Es. reflexivity.
Qed.

Lemma derived_map_ok {X} (f : fields (T := T) X) es x : NoDup (fnames f) ->
  derived f (SMap es) = DOk x <-> exactly_once f es x.
Proof.
  intros ND. cbn. unfold derived_visit_map. rewrite dbind_ok, <- ffinish_ok.
  split; intros (s & H1 & H2); exists s; (split; [|exact H2]); apply (floop_ok f es ND); exact H1.
Qed.

Fixpoint in_order {X} (f : fields (T := T) X) (l : list (sval T)) : X -> list (sval T) -> Prop :=
  match f in fields X return X -> list (sval T) -> Prop with
  | FNil => fun _ rest => l = rest
  | FCons n de r => fun x rest =>
      exists v l', l = v :: l' /\ de v = DOk (fst x) /\ in_order r l' (snd x) rest
  end.
Lemma derived_visit_seq_ok {X} (f : fields (T := T) X) : forall i l x rest,
  derived_visit_seq f i l = DOk (x, rest) <-> in_order f l x rest.
Proof.
  induction f as [|A B n de r IH]; intros i l x rest; cbn [derived_visit_seq in_order].
  - destruct x. split; [intros H; injection H; auto|intros ->; reflexivity].
  - destruct x as [a b]. cbn [fst snd]. rewrite dbind_ok. split.
    + intros (p & Ep & E). apply dbind_ok in E. destruct E as (a' & Ea & E). apply ok_or_ok in Ea.
      apply dbind_ok in E. destruct E as ([b' rest'] & Eb & E). cbn [fst snd] in E. injection E as -> -> ->.
      apply IH in Eb. destruct l as [|v l]; cbn [next_element] in Ep.
      * injection Ep as <-. discriminate.
      * apply dbind_ok in Ep. destruct Ep as (a2 & Ea2 & E). injection E as <-. cbn [fst snd] in *.
        injection Ea as ->. exists v, l. auto.
    + intros (v & l' & -> & Ea & Eb). exists (Some a, l'). cbn [next_element]. rewrite Ea. split; [reflexivity|].
      cbn. apply (IH (S i)) in Eb. rewrite Eb. reflexivity.
Qed.
Lemma derived_seq_ok {X} (f : fields (T := T) X) l x :
  derived f (SSeq l) = DOk x <-> in_order f l x [].
Proof.
  cbn. rewrite dbind_ok. split.
  - intros ([x' rest] & E & H). apply derived_visit_seq_ok in E. cbn [fst snd] in H.
    destruct rest; [|discriminate]. injection H as ->. exact E.
  - intros H. exists (x, []). split; [apply derived_visit_seq_ok; exact H|reflexivity].
Qed.

(** ** Re-encodings *)
Lemma values_of_perm {A} n (es es' : list (string * A)) : Permutation es es' ->
  Permutation (values_of n es) (values_of n es').
Proof.
  intros H. unfold values_of. apply Permutation_map. induction H; cbn.
  - constructor.
  - destruct (String.eqb (fst x) n); [constructor|]; assumption.
  - destruct (String.eqb (fst x) n), (String.eqb (fst y) n); try reflexivity. constructor.
  - etransitivity; eassumption.
Qed.

Lemma values_of_re n (es es1 : list (string * sval T)) :
  Forall2 (fun a b => fst a = fst b /\ reencoding (snd a) (snd b)) es es1 ->
  Forall2 reencoding (values_of n es) (values_of n es1).
Proof.
  induction 1 as [|[k v] [k' v'] es es1 [E R] H IH]; [constructor|].
  cbn [fst snd] in *. subst k'. rewrite !values_of_cons. destruct (String.eqb k n); [constructor|]; assumption.
Qed.

Lemma re_values n es es1 es' (v : sval T) :
  Forall2 (fun a b => fst a = fst b /\ reencoding (snd a) (snd b)) es es1 ->
  Permutation es1 es' -> values_of n es = [v] ->
  exists v', values_of n es' = [v'] /\ reencoding v v'.
Proof.
  intros F P E. apply (values_of_re n) in F. apply (values_of_perm n) in P. rewrite E in F.
  inversion F as [|? v' ? l R F' E1 E2]; subst. inversion F'; subst. rewrite <- E2 in P.
  apply Permutation_length_1_inv in P. exists v'. auto.
Qed.

(** A document with one entry per field, in order, all of whose re-encodings
    are read as given. *)
Fixpoint reads {X} (f : fields (T := T) X) (es : list (string * sval T)) : X -> Prop :=
  match f in fields X return X -> Prop with
  | FNil => fun _ => es = []
  | FCons n de r => fun x =>
      exists v es', es = (n, v) :: es' /\
        (forall v', reencoding v v' -> de v' = DOk (fst x)) /\ reads r es' (snd x)
  end.

Lemma reads_keys {X} (f : fields (T := T) X) : forall es x, reads f es x -> map fst es = fnames f.
Proof.
  induction f as [|A B n de r IH]; cbn; intros es x H.
  - now subst.
  - destruct H as (v & es' & -> & _ & H). cbn. f_equal. eapply IH, H.
Qed.
Lemma values_of_notin {A} n (es : list (string * A)) : ~ In n (map fst es) -> values_of n es = [].
Proof.
  induction es as [|[k v] es IH]; [reflexivity|]. intros H. rewrite values_of_cons.
  destruct (String.eqb_spec k n) as [->|E]; [exfalso; apply H; cbn; auto|]. apply IH. cbn in H. tauto.
Qed.

(** the fields of [f] are read from the tail [es] of a document [all] *)
Lemma reads_once {X} (f : fields (T := T) X) : forall pre es all1 all' x,
  reads f es x -> NoDup (map fst pre ++ fnames f)%list ->
  Forall2 (fun a b => fst a = fst b /\ reencoding (snd a) (snd b)) (pre ++ es) all1 ->
  Permutation all1 all' -> exactly_once f all' x.
Proof.
  induction f as [|A B n de r IH]; intros pre es all1 all' x; cbn [reads fnames exactly_once]; [auto|].
  intros (v & es' & -> & Hv & Hr) ND F P. split.
  - assert (E : values_of n (pre ++ (n, v) :: es') = [v]).
    { unfold values_of. rewrite filter_app, map_app. cbn. rewrite String.eqb_refl. cbn.
      apply NoDup_remove_2 in ND. fold (values_of n pre) (values_of n es'). rewrite !values_of_notin; [reflexivity| |].
      - rewrite (reads_keys r es' (snd x) Hr). intros H. apply ND, in_or_app. auto.
      - intros H. apply ND, in_or_app. auto. }
    destruct (re_values n _ _ _ v F P E) as (v' & E' & R). exists v'. split; [exact E'|]. apply Hv, R.
  - apply (IH (pre ++ [(n, v)])%list es' all1 all' (snd x) Hr).
    + rewrite map_app. cbn. rewrite <- app_assoc. exact ND.
    + rewrite <- app_assoc. exact F.
    + exact P.
Qed.

Lemma reads_in_order {X} (f : fields (T := T) X) : forall es l x,
  reads f es x -> Forall2 (fun a b => reencoding (snd a) b) es l -> in_order f l x [].
Proof.
  induction f as [|A B n de r IH]; intros es l x; cbn [reads in_order].
  - intros -> F. inversion F. reflexivity.
  - intros (v & es' & -> & Hv & Hr) F. inversion F as [|? v' ? l' R F']; subst. cbn in R.
    exists v', l'. split; [reflexivity|]. split; [apply Hv, R|]. eapply IH; eassumption.
Qed.

Lemma derived_reads {X} (f : fields (T := T) X) es v x : NoDup (fnames f) ->
  reads f es x -> reencoding (SMap es) v -> derived f v = DOk x.
Proof.
  intros ND H R. inversion R as [| | | |? es1 es' F P|? l F]; subst.
  - apply derived_map_ok; [exact ND|]. exact (reads_once f [] es es1 es' x H ND F P).
  - apply derived_seq_ok. eapply reads_in_order; eassumption.
Qed.

Lemma re_num_inv (t : T) v : reencoding (SNum t) v -> v = SNum t.
Proof. now inversion 1. Qed.
Lemma re_nums (ts : list T) v : reencoding (SSeq (map SNum ts)) v -> v = SSeq (map SNum ts).
Proof.
  inversion 1 as [| | |l l' F| |]; subst. f_equal. clear -F. revert l' F.
  induction ts as [|t ts IH]; intros l' F; inversion F as [|? v ? l R F']; subst; [reflexivity|].
  cbn. f_equal; [apply re_num_inv, R|apply IH, F'].
Qed.
Lemma de_num_re t v : reencoding (SNum t) v -> de_num v = DOk t.
Proof. intros H. apply re_num_inv in H. subst. reflexivity. Qed.
Lemma de_v3_re p v : reencoding (ser_v3 p) v -> de_v3 v = DOk p.
Proof.
  intros H. apply re_nums in H. subst. apply de_v3_ok. cbn [map].
  do 3 eexists. repeat split; reflexivity.
Qed.
Lemma de_quat_re q v : reencoding (ser_quat q) v -> de_quat v = DOk q.
Proof.
  intros H. apply re_nums in H. subst. apply de_quat_ok. cbn [map].
  do 4 eexists. repeat split; reflexivity.
Qed.

Ltac nodup := repeat constructor; cbn; intuition discriminate.
Ltac rd := cbn [reads fst snd]; repeat (do 2 eexists; split; [reflexivity|split; [|]]).

Lemma de_persp_params_re p v : reencoding (ser_persp_params p) v -> de_persp_params v = DOk p.
Proof.
  intros H. unfold de_persp_params.
  rewrite (derived_reads persp_params_fields _ v (pp_fx p, (pp_fy p, (pp_skew p, (pp_cx p, (pp_cy p, tt))))) ltac:(nodup)
    ltac:(rd; try (intros ? R; apply de_num_re, R); reflexivity) H). cbn. destruct p; reflexivity.
Qed.
Lemma de_ortho_params_re p v : reencoding (ser_ortho_params p) v -> de_ortho_params v = DOk p.
Proof.
  intros H. unfold de_ortho_params.
  rewrite (derived_reads ortho_params_fields _ v (op_sx p, (op_sy p, (op_cx p, (op_cy p, tt)))) ltac:(nodup)
    ltac:(rd; try (intros ? R; apply de_num_re, R); reflexivity) H). cbn. destruct p; reflexivity.
Qed.
Lemma de_ortho_re k v : reencoding (ser_ortho k) v -> de_ortho v = DOk k.
Proof.
  intros H. unfold de_ortho.
  rewrite (derived_reads (FCons "params" de_ortho_params FNil) _ v (io_params k, tt) ltac:(nodup)
    ltac:(rd; try (intros ? R; apply de_ortho_params_re, R); reflexivity) H). cbn. destruct k; reflexivity.
Qed.

(** ** The hand-written deserializers *)
Lemma F2_two {A B} (R : A -> B -> Prop) a b l : Forall2 R [a; b] l -> exists a' b', l = [a'; b'] /\ R a a' /\ R b b'.
Proof.
  intros H. inversion H as [|? a' ? l1 Ra H1]; subst. inversion H1 as [|? b' ? l2 Rb H2]; subst. inversion H2; subst.
  exists a', b'. auto.
Qed.
Lemma F2_one {A B} (R : A -> B -> Prop) a l : Forall2 R [a] l -> exists a', l = [a'] /\ R a a'.
Proof. intros H. inversion H as [|? a' ? l1 Ra H1]; subst. inversion H1; subst. exists a'. auto. Qed.

Lemma extr_loop_full q c es : forall r, extr_loop es (Some q) (Some c) = DOk r <-> es = [] /\ r = (Some q, Some c).
Proof.
  intros r. destruct es as [|[k v] es]; cbn.
  - split; [intros H; injection H; auto|intros [_ ->]; reflexivity].
  - split; [|intros [? _]; discriminate]. unfold efield_of.
    destruct (String.eqb k "rquat"); [discriminate|]. destruct (String.eqb k "camcenter"); discriminate.
Qed.
Lemma extr_loop_q q es c : extr_loop es (Some q) None = DOk (Some q, Some c) <->
  exists v, es = [("camcenter", v)] /\ de_v3 v = DOk c.
Proof.
  destruct es as [|[k v] es]; cbn.
  - split; [discriminate|intros (v & ? & _); discriminate].
  - unfold efield_of. destruct (String.eqb_spec k "rquat") as [->|N1].
    + cbn. split; [discriminate|]. intros (v' & E & _). discriminate.
    + destruct (String.eqb_spec k "camcenter") as [->|N2]; cbn.
      * rewrite dbind_ok. split.
        -- intros (c' & Ec & H). apply extr_loop_full in H. destruct H as [-> E]. injection E as ->. exists v. auto.
        -- intros (v' & E & Ec). injection E as -> ->. exists c. split; [exact Ec|]. now apply extr_loop_full.
      * split; [discriminate|]. intros (v' & E & _). injection E as -> _ _. now exfalso.
Qed.
Lemma extr_loop_c c es q : extr_loop es None (Some c) = DOk (Some q, Some c) <->
  exists v, es = [("rquat", v)] /\ de_quat v = DOk q.
Proof.
  destruct es as [|[k v] es]; cbn.
  - split; [discriminate|intros (v & ? & _); discriminate].
  - unfold efield_of. destruct (String.eqb_spec k "rquat") as [->|N1].
    + cbn. rewrite dbind_ok. split.
      * intros (c' & Ec & H). apply extr_loop_full in H. destruct H as [-> E]. injection E as ->. exists v. auto.
      * intros (v' & E & Ec). injection E as -> ->. exists q. split; [exact Ec|]. now apply extr_loop_full.
    + destruct (String.eqb_spec k "camcenter") as [->|N2]; cbn.
      * split; [discriminate|]. intros (v' & E & _). discriminate.
      * split; [discriminate|]. intros (v' & E & _). injection E as -> _ _. now exfalso.
Qed.
Lemma extr_loop_keep_q q es : forall c r, extr_loop es (Some q) c = DOk r -> fst r = Some q.
Proof.
  induction es as [|[k v] es IH]; cbn; intros c r.
  - intros H. injection H as <-. reflexivity.
  - unfold efield_of. destruct (String.eqb k "rquat"); [discriminate|].
    destruct (String.eqb k "camcenter"); [|discriminate]. cbn. destruct c; [discriminate|].
    intros H. apply dbind_ok in H. destruct H as (x & _ & H). eapply IH, H.
Qed.
Lemma extr_loop_keep_c c es : forall q r, extr_loop es q (Some c) = DOk r -> snd r = Some c.
Proof.
  induction es as [|[k v] es IH]; cbn; intros q r.
  - intros H. injection H as <-. reflexivity.
  - unfold efield_of. destruct (String.eqb k "rquat").
    + cbn. destruct q; [discriminate|]. intros H. apply dbind_ok in H. destruct H as (x & _ & H). eapply IH, H.
    + destruct (String.eqb k "camcenter"); discriminate.
Qed.

Lemma perm_two {A} (a b : A) l : Permutation l [a; b] -> l = [a; b] \/ l = [b; a].
Proof.
  intros H. apply Permutation_sym in H. apply Permutation_length_2_inv in H. tauto.
Qed.

Lemma C50a_lemma (es : list (string * sval T)) (e : ExtrinsicParameters T) :
  de_extrinsics (SMap es) = DOk e <->
  exists vq vc q c, Permutation es [("rquat", vq); ("camcenter", vc)] /\
    de_quat vq = DOk q /\ de_v3 vc = DOk c /\ e = from_rotation_and_camcenter q c.
Proof.
  cbn. unfold extr_visit_map. rewrite dbind_ok. split.
  - intros ([q' c'] & Hl & H). cbn [fst snd] in H.
    apply dbind_ok in H. destruct H as (q & Eq & H). apply ok_or_ok in Eq. subst q'.
    apply dbind_ok in H. destruct H as (c & Ec & H). apply ok_or_ok in Ec. subst c'.
    injection H as <-.
    destruct es as [|[k v] es]; cbn in Hl; [discriminate|]. unfold efield_of in Hl.
    destruct (String.eqb_spec k "rquat") as [->|N1].
    + cbn in Hl. apply dbind_ok in Hl. destruct Hl as (q1 & Eq & Hl).
      pose proof (extr_loop_keep_q _ _ _ _ Hl) as E. cbn in E. injection E as <-.
      apply extr_loop_q in Hl. destruct Hl as (vc & -> & Ec).
      exists v, vc, q, c. auto.
    + destruct (String.eqb_spec k "camcenter") as [->|N2]; [|discriminate].
      cbn in Hl. apply dbind_ok in Hl. destruct Hl as (c1 & Ec & Hl).
      pose proof (extr_loop_keep_c _ _ _ _ Hl) as E. cbn in E. injection E as <-.
      apply extr_loop_c in Hl. destruct Hl as (vq & -> & Eq).
      exists vq, v, q, c. split; [constructor|auto].
  - intros (vq & vc & q & c & P & Eq & Ec & ->). exists (Some q, Some c). split; [|reflexivity].
    apply perm_two in P. destruct P as [-> | ->]; cbn; rewrite Eq, ?Ec; cbn; rewrite ?Eq, ?Ec; reflexivity.
Qed.

Lemma C50b_lemma (l : list (sval T)) (e : ExtrinsicParameters T) :
  de_extrinsics (SSeq l) = DOk e <->
  exists vq vc q c, l = [vq; vc] /\
    de_quat vq = DOk q /\ de_v3 vc = DOk c /\ e = from_rotation_and_camcenter q c.
Proof.
  cbn. rewrite dbind_ok. split.
  - intros ([e' rest] & H & E). cbn [fst snd] in E. destruct rest; [|discriminate]. injection E as ->.
    unfold extr_visit_seq in H. destruct l as [|vq l]; cbn in H; [discriminate|].
    destruct (de_quat vq) as [q|] eqn:Eq; [|discriminate]. cbn in H.
    destruct l as [|vc l]; cbn in H; [discriminate|].
    destruct (de_v3 vc) as [c|] eqn:Ec; [|discriminate]. cbn in H. injection H as <- ->.
    exists vq, vc, q, c. auto.
  - intros (vq & vc & q & c & -> & Eq & Ec & ->). exists (from_rotation_and_camcenter q c, []).
    unfold extr_visit_seq. cbn. rewrite Eq. cbn. rewrite Ec. cbn. auto.
Qed.

Lemma persp_loop_some p es : forall r, persp_loop es (Some p) = DOk r <-> es = [] /\ r = Some p.
Proof.
  intros r. destruct es as [|[k v] es]; cbn.
  - split; [intros H; injection H; auto|intros [_ ->]; reflexivity].
  - split; [destruct (String.eqb k "params"); discriminate|intros [? _]; discriminate].
Qed.

Lemma C50c_lemma (es : list (string * sval T)) (k : IntrinsicParametersPerspective T) :
  de_persp (SMap es) = DOk k <->
  exists v p, es = [("params", v)] /\ de_persp_params v = DOk p /\ k = perspective_from p.
Proof.
  cbn. unfold persp_visit_map. rewrite dbind_ok. split.
  - intros (p' & Hl & H). apply dbind_ok in H. destruct H as (p & Ep & H). apply ok_or_ok in Ep. subst p'.
    injection H as <-. destruct es as [|[key v] es]; cbn in Hl; [discriminate|].
    destruct (String.eqb_spec key "params") as [->|N]; [|discriminate].
    apply dbind_ok in Hl. destruct Hl as (p1 & Ep & Hl). apply persp_loop_some in Hl.
    destruct Hl as [-> E]. injection E as ->. exists v, p1. auto.
  - intros (v & p & -> & Ep & ->). exists (Some p). cbn. rewrite Ep. auto.
Qed.
Lemma C50d_lemma (l : list (sval T)) (k : IntrinsicParametersPerspective T) :
  de_persp (SSeq l) = DOk k <->
  exists v p, l = [v] /\ de_persp_params v = DOk p /\ k = perspective_from p.
Proof.
  cbn. rewrite dbind_ok. split.
  - intros ([e' rest] & H & E). cbn [fst snd] in E. destruct rest; [|discriminate]. injection E as ->.
    unfold persp_visit_seq in H. destruct l as [|v l]; cbn in H; [discriminate|].
    destruct (de_persp_params v) as [p|] eqn:Ep; [|discriminate]. cbn in H. injection H as <- ->.
    exists v, p. auto.
  - intros (v & p & -> & Ep & ->). exists (perspective_from p, []).
    unfold persp_visit_seq. cbn. rewrite Ep. cbn. auto.
Qed.

Definition is_struct (v : sval T) : Prop := match v with SSeq _ | SMap _ => True | _ => False end.

(** what the numbers, vectors and quaternions of a document may look like *)
Lemma C50e_lemma (v : sval T) :
  (forall e, de_extrinsics v = DOk e -> (exists l, v = SSeq l) \/ (exists es, v = SMap es)) /\
  (forall k, de_persp v = DOk k -> (exists l, v = SSeq l) \/ (exists es, v = SMap es)) /\
  (forall t, de_num v = DOk t <-> v = SNum t \/ exists n, v = SInt n /\ t = o_lit (Z.of_nat n) 0) /\
  (forall p, de_v3 v = DOk p <-> exists a b c, v = SSeq [a; b; c] /\
     de_num a = DOk (vx p) /\ de_num b = DOk (vy p) /\ de_num c = DOk (vz p)) /\
  (forall q, de_quat v = DOk q <-> exists i j k w, v = SSeq [i; j; k; w] /\
     de_num i = DOk (qi q) /\ de_num j = DOk (qj q) /\ de_num k = DOk (qk q) /\ de_num w = DOk (qw q)).
Proof.
  split; [|split; [|split; [|split]]].
  - intros e. destruct v; cbn; try discriminate; eauto.
  - intros e. destruct v; cbn; try discriminate; eauto.
  - intros t. destruct v; cbn; split; intros H; try discriminate;
      try (destruct H as [H|(n' & H & ?)]; discriminate).
    + injection H as ->. auto.
    + destruct H as [H|(n' & H & ?)]; [injection H as ->; reflexivity|discriminate].
    + injection H as <-. right. exists n. auto.
    + destruct H as [H|(n' & H & ?)]; [discriminate|]. injection H as <-. subst. reflexivity.
  - apply de_v3_ok.
  - apply de_quat_ok.
Qed.

(** the five parameters: each known name exactly once, other names ignored *)
Lemma C50f_lemma (es : list (string * sval T)) (p : PerspectiveParams T) :
  de_persp_params (SMap es) = DOk p <->
  exists v1 v2 v3 v4 v5,
    values_of "fx" es = [v1] /\ values_of "fy" es = [v2] /\ values_of "skew" es = [v3] /\
    values_of "cx" es = [v4] /\ values_of "cy" es = [v5] /\
    de_num v1 = DOk (pp_fx p) /\ de_num v2 = DOk (pp_fy p) /\ de_num v3 = DOk (pp_skew p) /\
    de_num v4 = DOk (pp_cx p) /\ de_num v5 = DOk (pp_cy p).
Proof.
  unfold de_persp_params. rewrite dbind_ok. split.
  - intros ([fx [fy [sk [cx [cy u]]]]] & H & E). injection E as <-.
    apply derived_map_ok in H; [|nodup]. cbn [exactly_once persp_params_fields fst snd] in H.
    destruct H as ((v1 & ? & ?) & (v2 & ? & ?) & (v3 & ? & ?) & (v4 & ? & ?) & (v5 & ? & ?) & _).
    exists v1, v2, v3, v4, v5. cbn. tauto.
  - intros (v1 & v2 & v3 & v4 & v5 & ? & ? & ? & ? & ? & ? & ? & ? & ? & ?).
    exists (pp_fx p, (pp_fy p, (pp_skew p, (pp_cx p, (pp_cy p, tt))))). split; [|destruct p; reflexivity].
    apply derived_map_ok; [nodup|]. cbn [exactly_once persp_params_fields fst snd]. repeat split; eauto.
Qed.

(** ** Round trips *)
Lemma de_extrinsics_re q c v :
  reencoding (ser_extrinsics (from_rotation_and_camcenter q c)) v ->
  de_extrinsics v = DOk (from_rotation_and_camcenter q c).
Proof.
  intros H. unfold ser_extrinsics in H. inversion H as [| | | |? es1 es' F P|? l F]; subst.
  - apply F2_two in F. destruct F as ([k1 v1] & [k2 v2] & -> & (E1 & R1) & (E2 & R2)). cbn [fst snd] in *. subst k1 k2.
    apply C50a_lemma. exists v1, v2, q, c. split; [now apply Permutation_sym|].
    split; [apply de_quat_re, R1|]. split; [apply de_v3_re, R2|reflexivity].
  - apply F2_two in F. destruct F as (v1 & v2 & -> & R1 & R2). cbn [fst snd] in *.
    apply C50b_lemma. exists v1, v2, q, c. split; [reflexivity|].
    split; [apply de_quat_re, R1|]. split; [apply de_v3_re, R2|reflexivity].
Qed.

Lemma de_persp_re p v :
  reencoding (ser_persp (perspective_from p)) v -> de_persp v = DOk (perspective_from p).
Proof.
  intros H. unfold ser_persp in H. inversion H as [| | | |? es1 es' F P|? l F]; subst.
  - apply F2_one in F. destruct F as ([k1 v1] & -> & (E1 & R1)). cbn [fst snd] in *. subst k1.
    apply Permutation_length_1_inv in P. subst.
    apply C50c_lemma. exists v1, p. split; [reflexivity|]. split; [apply de_persp_params_re, R1|reflexivity].
  - apply F2_one in F. destruct F as (v1 & -> & R1). cbn [fst snd] in *.
    apply C50d_lemma. exists v1, p. split; [reflexivity|]. split; [apply de_persp_params_re, R1|reflexivity].
Qed.

Lemma C49a_lemma (q : Quat T) (c : V3 T) (v : sval T) :
  reencoding (ser_extrinsics (from_rotation_and_camcenter q c)) v ->
  de_extrinsics v = DOk (from_rotation_and_camcenter q c).
Proof. exact (de_extrinsics_re q c v). Qed.

Lemma C49b_lemma (pose : Iso T) (cc lookat up : V3 T) (v : sval T) :
  (reencoding (ser_extrinsics (from_pose pose)) v -> de_extrinsics v = DOk (from_pose pose)) /\
  (reencoding (ser_extrinsics (from_view cc lookat up)) v -> de_extrinsics v = DOk (from_view cc lookat up)).
Proof. split; apply de_extrinsics_re. Qed.

Lemma C49c_lemma (p : PerspectiveParams T) (m : M34 T) (v : sval T) :
  (reencoding (ser_persp (perspective_from p)) v -> de_persp v = DOk (perspective_from p)) /\
  (forall k, from_normalized_3x4_matrix m = Ok k -> reencoding (ser_persp k) v -> de_persp v = DOk k).
Proof.
  split; [apply de_persp_re|]. intros k H. unfold from_normalized_3x4_matrix in H.
  repeat match type of H with (if ?b then _ else _) = _ => destruct b; [discriminate|] end.
  injection H as <-. apply de_persp_re.
Qed.

Lemma C49d_lemma (p : OrthographicParams T) (v : sval T) :
  reencoding (ser_ortho (orthographic_from p)) v -> de_ortho v = DOk (orthographic_from p).
Proof. exact (de_ortho_re (orthographic_from p) v). Qed.

Lemma de_camera_re {I} (ser_i : I -> sval T) (de_i : sval T -> dres I) (k : I) q c v :
  (forall v, reencoding (ser_i k) v -> de_i v = DOk k) ->
  reencoding (ser_camera ser_i (mkCamera k (from_rotation_and_camcenter q c))) v ->
  de_camera de_i v = DOk (mkCamera k (from_rotation_and_camcenter q c)).
Proof.
  intros Hi H. unfold de_camera.
  rewrite (derived_reads (FCons "intrinsics" de_i (FCons "extrinsics" de_extrinsics FNil)) _ v
    (k, (from_rotation_and_camcenter q c, tt)) ltac:(nodup)
    ltac:(rd; try (intros ? R; first [apply Hi, R|apply de_extrinsics_re, R]); reflexivity) H). reflexivity.
Qed.

Lemma C49e_lemma (q : Quat T) (c : V3 T) (p : PerspectiveParams T) (o : OrthographicParams T) (v : sval T) :
  let e := from_rotation_and_camcenter q c in
  (reencoding (ser_camera ser_persp (mkCamera (perspective_from p) e)) v ->
   de_camera de_persp v = DOk (mkCamera (perspective_from p) e)) /\
  (reencoding (ser_camera ser_ortho (mkCamera (orthographic_from o) e)) v ->
   de_camera de_ortho v = DOk (mkCamera (orthographic_from o) e)).
Proof.
  intros e. split; apply de_camera_re; intros v'.
  - apply de_persp_re.
  - apply (de_ortho_re (orthographic_from o)).
Qed.

(** the result of [from_perspective_matrix] round-trips as well *)
Lemma C49f_lemma (pmat : M34 T) cam (v : sval T) :
  from_perspective_matrix pmat = Some (Ok cam) ->
  reencoding (ser_camera ser_persp cam) v -> de_camera de_persp v = DOk cam.
Proof.
  intros H. unfold from_perspective_matrix in H. cbv zeta in H.
  destruct (rq_decomposition _) as [[[rquat k]|e]|]; cbn [bind] in H; try discriminate.
  injection H as <-. apply de_camera_re. intros v'. apply de_persp_re.
Qed.

(** ** Column-major data *)
Lemma zip3_map (rows : list (V3 T)) : zip3 (map vx rows) (map vy rows) (map vz rows) = rows.
Proof. induction rows as [|[a b c] rows IH]; cbn; congruence. Qed.
Lemma of_to_columns (rows : list (V3 T)) : of_columns (List.length rows) (to_columns rows) = rows.
Proof.
  unfold of_columns, to_columns.
  rewrite firstn_app, map_length, Nat.sub_diag. cbn [firstn]. rewrite app_nil_r.
  rewrite firstn_all2 by (rewrite map_length; lia).
  rewrite skipn_app, map_length, Nat.sub_diag. cbn [skipn].
  rewrite skipn_all2 by (rewrite map_length; lia). cbn [app].
  rewrite firstn_app, map_length, Nat.sub_diag. cbn [firstn]. rewrite app_nil_r.
  rewrite firstn_all2 by (rewrite map_length; lia).
  rewrite skipn_app, map_length, Nat.sub_diag. cbn [skipn].
  rewrite skipn_all2 by (rewrite map_length; lia). cbn [app].
  apply zip3_map.
Qed.
Lemma to_columns_length (rows : list (V3 T)) : List.length (to_columns rows) = (List.length rows * 3)%nat.
Proof. unfold to_columns. rewrite !app_length, !map_length. lia. Qed.

Lemma F2_nums (ts : list T) : Forall2 (fun v t => de_num v = DOk t) (map SNum ts) ts.
Proof. induction ts; constructor; auto. Qed.
Lemma de_nums_map (ts : list T) : de_nums (map SNum ts) = DOk ts.
Proof. induction ts; cbn; [reflexivity|]. rewrite IHts. reflexivity. Qed.

Lemma de_smatrix_re rows v : reencoding (ser_smatrix rows) v -> de_smatrix (List.length rows) v = DOk rows.
Proof.
  intros H. apply re_nums in H. subst. unfold de_smatrix.
  assert (E : de_array (List.length rows * 3) (SSeq (map SNum (to_columns rows))) = DOk (to_columns rows)).
  { apply de_array_ok. eexists. split; [reflexivity|]. split; [apply F2_nums|].
    rewrite map_length. apply to_columns_length. }
  rewrite E. cbn [dbind]. now rewrite of_to_columns.
Qed.
Lemma de_dmatrix_re rows v : reencoding (ser_dmatrix rows) v -> de_dmatrix v = DOk rows.
Proof.
  intros H. unfold ser_dmatrix in H. inversion H as [| | |l l' F| |]; subst.
  inversion F as [|? v1 ? l1 R1 F1]; subst. inversion F1 as [|? v2 ? l2 R2 F2]; subst.
  inversion F2 as [|? v3 ? l3 R3 F3]; subst. inversion F3; subst.
  apply re_nums in R1. inversion R2; subst. inversion R3; subst.
  cbn [de_dmatrix ser_smatrix]. rewrite de_nums_map. cbn [dbind].
  rewrite to_columns_length, Nat.eqb_refl, of_to_columns. reflexivity.
Qed.
Lemma de_so_re b v : reencoding (ser_so b) v -> de_so v = DOk b.
Proof.
  intros H. unfold de_so.
  rewrite (derived_reads (FCons "center" de_v3 FNil) _ v (so_center b, tt) ltac:(nodup)
    ltac:(rd; try (intros ? R; apply de_v3_re, R); reflexivity) H). cbn. destruct b; reflexivity.
Qed.
Lemma de_sd_re b v : reencoding (ser_sd b) v -> de_sd v = DOk b.
Proof.
  intros H. unfold de_sd.
  rewrite (derived_reads (FCons "direction" de_v3 FNil) _ v (sd_direction b, tt) ltac:(nodup)
    ltac:(rd; try (intros ? R; apply de_v3_re, R); reflexivity) H). cbn. destruct b; reflexivity.
Qed.

Lemma de_bundle_re {Coords B} ser_data de_data (ser_b : B -> sval T) (de_b : sval T -> dres B)
    (r : RayBundle Coords B T) v :
  (forall v, reencoding (ser_data (rb_data r)) v -> de_data v = DOk (rb_data r)) ->
  (forall v, reencoding (ser_b (rb_type r)) v -> de_b v = DOk (rb_type r)) ->
  reencoding (ser_bundle ser_data ser_b r) v -> de_bundle (Coords := Coords) de_data de_b v = DOk r.
Proof.
  intros Hd Hb H. unfold de_bundle.
  rewrite (derived_reads (FCons "coords" de_unit (FCons "data" de_data (FCons "bundle_type" de_b FNil)))
    [("coords", SUnit); ("data", ser_data (rb_data r)); ("bundle_type", ser_b (rb_type r))] v
    (tt, (rb_data r, (rb_type r, tt))) ltac:(nodup)
    ltac:(rd; try (intros ? R; first [inversion R; reflexivity|apply Hd, R|apply Hb, R]); reflexivity) H).
  destruct r; reflexivity.
Qed.

Lemma C52_lemma Coords (so : RayBundle Coords (SharedOriginRayBundle T) T)
    (sd : RayBundle Coords (SharedDirectionRayBundle T) T) (v : sval T) :
  (reencoding (ser_bundle ser_smatrix ser_so so) v ->
   de_bundle (de_smatrix (List.length (rb_data so))) de_so v = DOk so) /\
  (reencoding (ser_bundle ser_smatrix ser_sd sd) v ->
   de_bundle (de_smatrix (List.length (rb_data sd))) de_sd v = DOk sd) /\
  (reencoding (ser_bundle ser_dmatrix ser_so so) v -> de_bundle de_dmatrix de_so v = DOk so) /\
  (reencoding (ser_bundle ser_dmatrix ser_sd sd) v -> de_bundle de_dmatrix de_sd v = DOk sd).
Proof.
  repeat split; apply de_bundle_re; intros v';
    first [apply de_smatrix_re|apply de_dmatrix_re|apply de_so_re|apply de_sd_re].
Qed.

End P.
