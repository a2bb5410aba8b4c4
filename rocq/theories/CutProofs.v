(** Proofs about imprinting. *)
From Coq Require Import Ascii String Reals List Bool Arith Lia Lra.
From Verif Require Import Prelude UtilModel CutModel CutSpec.
Import ListNotations.

Lemma turned_0 {A} (l : list A) : turned 0 l = l.
Proof. unfold turned. cbn. apply app_nil_r. Qed.
Lemma turned_all {A} (l : list A) : turned (length l) l = l.
Proof. unfold turned. rewrite skipn_all, firstn_all. auto. Qed.
Lemma skipn_step {A} (l : list A) : forall k, (k < length l)%nat -> exists x, skipn k l = x :: skipn (S k) l /\ firstn (S k) l = firstn k l ++ [x].
Proof.
  induction l as [|a l IH]; intros k L; [cbn in L; lia|]. destruct k; [exists a; auto|].
  cbn in L. destruct (IH k) as (x & E & F); [lia|]. exists x. split; [exact E|]. change (firstn (S (S k)) (a :: l)) with (a :: firstn (S k) l). rewrite F. auto.
Qed.
Lemma turned_step {A} (l : list A) k : (k < length l)%nat -> roll_back (turned k l) = Ok (turned (S k) l).
Proof.
  intros L. destruct (skipn_step l k L) as (x & E & F). unfold turned. rewrite E, F. cbn. rewrite app_assoc. auto.
Qed.

Lemma tries_first {A B} (f : list A -> result B) l : forall m k r, (k + m < length l)%nat ->
  (match r with
   | Some y => exists j, (k <= j <= k + m)%nat /\ f (turned j l) = y /\ y <> Err GeometryError /\ (forall i, (k <= i < j)%nat -> f (turned i l) = Err GeometryError)
   | None => forall j, (k <= j <= k + m)%nat -> f (turned j l) = Err GeometryError
   end) -> tries f m (turned k l) = match r with Some y => y | None => Err GeometryError end.
Proof.
  induction m as [|m IH]; intros k r L H.
  - cbn [tries]. destruct r as [y|].
    + destruct H as (j & Lj & E & N & _). assert (j = k) by lia. subst j. rewrite E. destruct y as [b|[]]; congruence.
    + rewrite H by lia. rewrite turned_step by lia. auto.
  - assert (St : tries f (S m) (turned k l) = match f (turned k l) with Err GeometryError => do c <- roll_back (turned k l); tries f m c | r => r end) by reflexivity.
    rewrite St. destruct (f (turned k l)) as [b|e] eqn:Ef.
    + destruct r as [y|]; [|specialize (H k); rewrite Ef in H; discriminate H; lia].
      destruct H as (j & Lj & E & N & B0). destruct (Nat.eq_dec j k) as [->|D]; [congruence|]. rewrite B0 in Ef by lia. discriminate.
    + destruct (match e with GeometryError => true | _ => false end) eqn:Ge.
      * destruct e; try discriminate. rewrite turned_step by lia. cbn [rbind]. apply IH; [lia|]. destruct r as [y|].
        -- destruct H as (j & Lj & E & N & B0). destruct (Nat.eq_dec j k) as [->|D]; [congruence|]. exists j. split; [lia|]. split; auto. split; auto. intros i Li. apply B0. lia.
        -- intros j Lj. apply H. lia.
      * destruct r as [y|].
        -- destruct H as (j & Lj & E & N & B0). destruct (Nat.eq_dec j k) as [->|D]; [|rewrite B0 in Ef by lia; inversion Ef; subst e; discriminate].
           rewrite Ef in E. subst y. destruct e; auto; discriminate.
        -- rewrite H in Ef by lia. inversion Ef. subst e. discriminate.
Qed.
Lemma first_dec {A B} (f : list A -> result B) l : forall n, exists r, first_of f l n r.
Proof.
  induction n as [|n IH]; [exists None; intros j L; lia|]. destruct IH as ([y|] & H).
  - exists (Some y). destruct H as (k & L & R). exists k. split; [lia|]. exact R.
  - destruct (f (turned n l)) as [b|e] eqn:E.
    + exists (Some (Ok b)). exists n. split; [lia|]. split; auto. split; [discriminate|]. exact H.
    + destruct (match e with GeometryError => true | _ => false end) eqn:G.
      * destruct e; try discriminate. exists None. intros j L. destruct (Nat.eq_dec j n) as [->|]; auto. apply H. lia.
      * exists (Some (Err e)). exists n. split; [lia|]. split; auto. split; [|exact H]. intros C. inversion C. subst e. discriminate.
Qed.
Lemma tries_less {A B} (f : list A -> result B) l r : l <> [] -> first_of f l (length l) r ->
  tries f (length l - 1) l = match r with Some y => y | None => Err GeometryError end.
Proof.
  intros N H. assert (length l <> 0)%nat by (destruct l; cbn; congruence).
  rewrite <- (turned_0 l) at 2. apply tries_first; [lia|]. destruct r as [y|].
  - destruct H as (k & L & E & Ne & B0). exists k. split; [lia|]. split; auto. split; auto. intros i Li. apply B0. lia.
  - intros j Lj. apply H. lia.
Qed.
Lemma tries_last {A B} (f : list A -> result B) c c' : roll_back c = Ok c' -> tries f 0 c = match f c with Err GeometryError => Err GeometryError | r => r end.
Proof. intros E. cbn [tries]. rewrite E. destruct (f c) as [b|[]]; auto. Qed.
Lemma tries_more {A B} (f : list A -> result B) l : forall m k, (k + S m = length l)%nat ->
  tries f (S m) (turned k l) = match tries f m (turned k l) with Err GeometryError => tries f 0 l | r => r end.
Proof.
  induction m as [|m IH]; intros k L.
  - assert (St : tries f 1 (turned k l) = match f (turned k l) with Err GeometryError => do c <- roll_back (turned k l); tries f 0 c | r => r end) by reflexivity.
    rewrite St, (tries_last f (turned k l) (turned (S k) l)) by (apply turned_step; lia). rewrite turned_step by lia. cbn [rbind].
    replace (S k) with (length l) by lia. rewrite turned_all. destruct (f (turned k l)) as [b|[]]; auto.
  - assert (St : forall m, tries f (S m) (turned k l) = match f (turned k l) with Err GeometryError => do c <- roll_back (turned k l); tries f m c | r => r end) by reflexivity.
    rewrite !St. rewrite turned_step by lia. cbn [rbind]. rewrite IH by lia. destruct (f (turned k l)) as [b|[]]; auto.
Qed.
Lemma tries_all {A B} (f : list A -> result B) l r : l <> [] -> first_of f l (length l) r ->
  tries f (length l) l = match r with Some y => y | None => Err GeometryError end.
Proof.
  intros N H. pose proof (tries_less f l r N H) as E. destruct (length l) as [|n] eqn:Ll; [destruct l; cbn in Ll; congruence|].
  replace (S n - 1)%nat with n in E by lia.
  pose proof (tries_more f l n 0) as M. rewrite turned_0 in M. rewrite M by lia. rewrite E. destruct r as [y|].
  - destruct H as (k & L & E' & Ne & B0). destruct y as [b|[]]; congruence.
  - rewrite (tries_last f l (turned 1 l)) by (rewrite <- (turned_0 l) at 1; apply turned_step; lia).
    assert (F : f (turned 0 l) = Err GeometryError) by (apply H; lia). rewrite turned_0 in F. rewrite F. auto.
Qed.

Section Cut2.
  Context {P pt : Type} (points : P -> list pt) (name : P -> str) (same : pt -> pt -> bool)
    (new : list pt -> result P) (interior : P -> result pt)
    (slice : P -> list pt -> str -> pt -> str -> result (P * P)) (closest : P -> P -> nat -> result (list (pt * pt))).
  Notation imprint := (imprint points name same new interior slice closest).
  Notation hole := (hole points name same new interior slice closest).
  Notation free_points := (free_points points same).
  Notation cut_once := (cut_once name new interior slice).
  Notation cut_main := (cut_main name interior slice).

  Lemma free_in ext int p : In p (free_points ext int) <-> In p (points int) /\ forall q, In q (points ext) -> same p q = false.
  Proof.
    unfold CutModel.free_points. rewrite filter_In, negb_true_iff. split; intros (I & E); split; auto.
    - intros q Iq. destruct (same p q) eqn:S; auto. assert (existsb (same p) (points ext) = true) by (apply existsb_exists; eauto). congruence.
    - destruct (existsb (same p) (points ext)) eqn:X; auto. apply existsb_exists in X. destruct X as (q & Iq & S). rewrite E in S by auto. discriminate.
  Qed.
  Lemma imprint_none ext int : (forall p, In p (points int) -> exists q, In q (points ext) /\ same p q = true) -> imprint ext int = Ok [] /\ hole ext int = Ok [].
  Proof.
    intros H. assert (E : free_points ext int = []).
    { destruct (free_points ext int) as [|p l] eqn:E; auto. exfalso.
      assert (I : In p (free_points ext int)) by (rewrite E; left; auto). apply free_in in I. destruct I as (I & F).
      destruct (H p I) as (q & Iq & S). rewrite F in S by auto. discriminate. }
    unfold CutModel.hole, CutModel.imprint. rewrite E. auto.
  Qed.

  Lemma imprint_step ext int r : free_points ext int <> [] -> first_of (cut_once ext) (free_points ext int) (length (free_points ext int)) r ->
    imprint ext int = match r with Some y => y | None => cut_twice name new interior slice closest ext int (free_points ext int) end.
  Proof.
    intros N H. unfold CutModel.imprint. destruct (free_points ext int) as [|p l] eqn:E; [congruence|]. rewrite <- E in *.
    rewrite (tries_less _ _ r N H). destruct r as [y|]; auto. destruct H as (k & L & E' & Ne & B0). destruct y as [b|[]]; congruence.
  Qed.
  Lemma twice_step ext int chain e0 i0 e1 i1 rest ref x sup main ref' r : chain <> [] ->
    closest ext int 2 = Ok ((e0, i0) :: (e1, i1) :: rest) -> new [e0; i0; i1; e1] = Ok ref -> interior ref = Ok x ->
    slice ext [e0; i0; i1; e1] (name ext ++ str_of "-sup") x (name ext ++ str_of "-main") = Ok (sup, main) -> new chain = Ok ref' ->
    first_of (cut_main ext int main sup ref') chain (length chain) r ->
    cut_twice name new interior slice closest ext int chain = match r with Some y => y | None => Err GeometryError end.
  Proof.
    intros N C0 N1 I1 S1 N2 H. unfold cut_twice. rewrite C0. cbn [rbind]. rewrite N1. cbn [rbind]. rewrite I1. cbn [rbind]. rewrite S1. cbn [rbind fst snd].
    rewrite N2. cbn [rbind]. apply tries_all; auto.
  Qed.

  Notation once := (once points name same new interior slice).
  Notation twice := (twice points name same new interior slice closest).
  Lemma imprint_result ext int ps : imprint ext int = Ok ps -> (free_points ext int = [] /\ ps = []) \/ once ext int ps \/ twice ext int ps.
  Proof.
    intros H. destruct (free_points ext int) as [|p0 l0] eqn:E.
    { left. unfold CutModel.imprint in H. rewrite E in H. inversion H. auto. }
    right. assert (N : free_points ext int <> []) by (rewrite E; discriminate). clear E.
    destruct (first_dec (cut_once ext) (free_points ext int) (length (free_points ext int))) as (r & F). rewrite (imprint_step ext int r N F) in H. destruct r as [y|].
    - left. destruct F as (k & L & Ek & _ & _). rewrite <- Ek in H. unfold CutModel.cut_once in H.
      destruct (new (turned k _)) as [ref|] eqn:E1; [|discriminate]. cbn [rbind] in H. destruct (interior ref) as [x|] eqn:E2; [|discriminate]. cbn [rbind] in H.
      destruct (slice ext _ _ x _) as [[a b]|] eqn:E3; [|discriminate]. cbn [rbind fst snd] in H. inversion H. exists k, ref, x, a, b. auto.
    - right. unfold cut_twice in H. destruct (closest ext int 2) as [pairs|] eqn:E0; [|discriminate]. cbn [rbind] in H.
      destruct pairs as [|[e0 i0] [|[e1 i1] rest]]; try discriminate.
      destruct (new [e0; i0; i1; e1]) as [ref|] eqn:E1; [|discriminate]. cbn [rbind] in H. destruct (interior ref) as [x|] eqn:E2; [|discriminate]. cbn [rbind] in H.
      destruct (slice ext _ _ x _) as [[sup main]|] eqn:E3; [|discriminate]. cbn [rbind fst snd] in H.
      destruct (new (free_points ext int)) as [ref'|] eqn:E4; [|discriminate]. cbn [rbind] in H.
      destruct (first_dec (cut_main ext int main sup ref') (free_points ext int) (length (free_points ext int))) as (r & F2).
      rewrite (tries_all _ _ r N F2) in H. destruct r as [y|]; [|discriminate]. destruct F2 as (k & L & Ek & _ & _). rewrite <- Ek in H.
      unfold CutModel.cut_main in H. destruct (interior ref') as [x'|] eqn:E5; [|discriminate]. cbn [rbind] in H.
      destruct (slice main _ _ x' _) as [[a b]|] eqn:E6; [|discriminate]. cbn [rbind fst snd] in H. inversion H.
      exists e0, i0, e1, i1, rest, ref, x, sup, main, k, ref', x', a, b. repeat split; auto.
  Qed.

  Lemma imprint_area (m : P -> R) ext int ps : (forall p c n1 x n2 a b, slice p c n1 x n2 = Ok (a, b) -> (m a + m b = m p)%R) ->
    imprint ext int = Ok ps -> ps <> [] ->
    total m ps = m ext /\ exists h, hole ext int = Ok h /\ (total m h = m ext - m (hd ext ps))%R.
  Proof.
    intros A H N. assert (T : total m ps = m ext).
    { destruct (imprint_result ext int ps H) as [(_ & ->)|[On|Tw]]; [congruence| |].
      - destruct On as (k & ref & x & a & b & _ & _ & _ & S & ->). apply A in S. cbn. lra.
      - destruct Tw as (e0 & i0 & e1 & i1 & rest & ref & x & sup & main & k & ref' & x' & a & b & _ & _ & _ & S1 & _ & _ & _ & S2 & ->).
        apply A in S1. apply A in S2. cbn. lra. }
    split; auto. exists (tl ps). unfold CutModel.hole. rewrite H. split; auto. destruct ps as [|a t]; [congruence|]. cbn in *. lra.
  Qed.
  Lemma imprint_names ext int ps : (forall p c n1 x n2 a b, slice p c n1 x n2 = Ok (a, b) -> name a = n1 /\ name b = n2) ->
    imprint ext int = Ok ps -> map name ps = [] \/ map name ps = [name ext ++ str_of "-1"; name ext ++ str_of "-2"] \/
      map name ps = [name ext ++ str_of "-" ++ name int; name ext ++ str_of "-sup"; name ext].
  Proof.
    intros A H. destruct (imprint_result ext int ps H) as [(_ & ->)|[On|Tw]]; auto.
    - destruct On as (k & ref & x & a & b & _ & _ & _ & S & ->). apply A in S. destruct S as (E1 & E2). cbn [map]. rewrite E1, E2. auto.
    - destruct Tw as (e0 & i0 & e1 & i1 & rest & ref & x & sup & main & k & ref' & x' & a & b & _ & _ & _ & S1 & _ & _ & _ & S2 & ->).
      apply A in S1. apply A in S2. destruct S1 as (S1 & _), S2 as (S2 & S3). cbn [map]. rewrite S1, S2, S3. auto.
  Qed.
  (** The first polygon contains a point within the outline of the free points. *)
  Lemma imprint_first (holds : P -> pt -> Prop) ext int ps : (forall p c n1 x n2 a b, slice p c n1 x n2 = Ok (a, b) -> holds a x) ->
    imprint ext int = Ok ps -> ps <> [] -> exists a t k ref x, ps = a :: t /\ (k < length (free_points ext int))%nat /\
      new (turned k (free_points ext int)) = Ok ref /\ interior ref = Ok x /\ holds a x.
  Proof.
    intros A H N. destruct (imprint_result ext int ps H) as [(_ & ->)|[On|Tw]]; [congruence| |].
    - destruct On as (k & ref & x & a & b & L & N1 & I1 & S & ->). apply A in S. exists a, [b], k, ref, x. auto.
    - destruct Tw as (e0 & i0 & e1 & i1 & rest & ref & x & sup & main & k & ref' & x' & a & b & _ & _ & _ & S1 & L & N2 & I2 & S2 & ->).
      apply A in S2. exists a, [sup; b], 0%nat, ref', x'. rewrite turned_0. repeat split; auto. lia.
  Qed.
  (** Fewer than three free points. *)
  Lemma imprint_few ext int : (forall c, (length c < 3)%nat -> exists e, new c = Err e) -> (0 < length (free_points ext int) < 3)%nat ->
    exists e, imprint ext int = Err e /\ hole ext int = Err e.
  Proof.
    intros F L. destruct (imprint ext int) as [ps|e] eqn:E; [|exists e; unfold CutModel.hole; rewrite E; auto].
    exfalso. destruct (imprint_result ext int ps E) as [(E0 & _)|[On|Tw]].
    - rewrite E0 in L. cbn in L. lia.
    - destruct On as (k & ref & x & a & b & Lk & N1 & _). destruct (F (turned k (free_points ext int))) as (e & Fe); [|congruence].
      unfold turned. rewrite app_length, skipn_length, firstn_length. lia.
    - destruct Tw as (e0 & i0 & e1 & i1 & rest & ref & x & sup & main & k & ref' & x' & a & b & _ & _ & _ & S1 & Lk & N2 & _).
      destruct (F (free_points ext int)) as (e & Fe); [lia|congruence].
  Qed.
End Cut2.
