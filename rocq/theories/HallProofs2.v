(** Floor plans made by the code: which points are found inside. *)
From Coq Require Import Ascii String Reals List ZArith Bool Arith Lia Lra Psatz Permutation.
From Verif Require Import Prelude TreeModel VecModel VecProofs GeomModel GeomSpec GeomProofs1 TriModel TriSpec TriProofs2 PolyModel PolySpec PolyProofs1 SolidModel SolidSpec SolidProofs1 CrossSpec InsideSpec InsideProofs1 InsideProofs2 RoomSpec PlanSpec PlanProofs1 PlanProofs2 PlanProofs3 PlanProofs4
  WindSpec WindProofs1 WindProofs2 WindProofs4 LoopSpec LoopProofs5 LoopProofs6 ShellSpec ShellProofs5 ShellProofs7 ShellProofs8 ShellProofs9 HallSpec HallProofs1.
Import ListNotations.
Local Open Scope R_scope.

Definition face_of (p : polygon) : face * vec * R := (p_pts p, p_tri p, p_vn p, - dot (p_vn p) (hd vzero (p_pts p))).
Lemma unit_opp n : unit n -> n <> vopp n.
Proof. unfold unit. intros U E. assert (X : dot n n = - dot n n) by (rewrite E at 2; vunf; ring). lra. Qed.
Lemma wall_side a b c d p : make_polygon [a; b; c; d] None None = Ok p -> vsub c b = vsub d a -> covers (p_pts p, p_tri p) (p_vn p) (- dot (p_vn p) (hd vzero (p_pts p))) /\ simple_outline (p_pts p).
Proof.
  intros M Pa. destruct (para_made a b c d p M Pa) as (Ep & U & k & K & Cr). set (u := vsub b a) in *. set (w := vsub d a) in *.
  assert (Er : [a; b; c; d] = rect a u w). { assert (c = vadd b w) as -> by (rewrite <- Pa; clear; dvec b; dvec c; vunf; f_equal; ring). unfold rect, u, w. clear. dvec a; dvec b; dvec d. repeat (apply f_equal2; [vunf; f_equal; ring|]). reflexivity. }
  assert (Du : dot (p_vn p) u = 0). { assert (E : k * dot (p_vn p) u = 0) by (replace (k * dot (p_vn p) u) with (dot (smul k (p_vn p)) u) by (vunf; ring); rewrite <- Cr; vunf; ring). apply Rmult_integral in E. destruct E; [lra|auto]. }
  assert (Dw : dot (p_vn p) w = 0). { assert (E : k * dot (p_vn p) w = 0) by (replace (k * dot (p_vn p) w) with (dot (smul k (p_vn p)) w) by (vunf; ring); rewrite <- Cr; vunf; ring). apply Rmult_integral in E. destruct E; [lra|auto]. }
  split; [|rewrite Ep, Er; apply (rect_simple a u w (p_vn p) k); auto].
  assert (Pl : in_plane (p_vn p) (dot (p_vn p) a) [a; b; c; d]) by (rewrite Er; intros q [<-|[<-|[<-|[<-|[]]]]]; rewrite ?dot_vadd_r, ?Du, ?Dw; ring).
  destruct (made_covers _ p (p_vn p) _ M U Pl) as (m & e & D & Em & Cv & _). destruct D as [(_ & ->)|(E & _)]; [|exfalso; apply (unit_opp _ U); congruence]. rewrite Ep at 2. cbn [hd]. rewrite Em in Cv. exact Cv.
Qed.
Lemma level_side p v c : made_from p -> (v = 1 \/ v = -1) -> p_vn p = V 0 0 v -> in_plane ez c (p_pts p) -> simple_outline (p_pts p) -> covers (p_pts p, p_tri p) (p_vn p) (- dot (p_vn p) (hd vzero (p_pts p))).
Proof.
  intros (pts0 & L & Tr) Hv En Pl Sm. pose proof (tri_structure _ _ _ _ L Tr) as (Rv & _). assert (U : unit (p_vn p)) by (rewrite En; unfold unit; destruct Hv as [-> | ->]; vunf; ring).
  assert (P0 : in_plane (p_vn p) (v * c) pts0). { intros q I. assert (I' : In q (p_pts p)) by (destruct Rv as [E|E]; rewrite E; auto; apply -> in_rev; auto). pose proof (Pl q I') as Q. rewrite dot_ez in Q. rewrite En. vunf. rewrite <- Q. ring. }
  destruct (triangulated_covers _ _ _ _ _ Tr L U P0) as (Cv & _ & Ne). replace (- dot (p_vn p) (hd vzero (p_pts p))) with (- (v * c)); auto. f_equal. destruct (p_pts p) as [|q r] eqn:E; [contradiction|]. cbn [hd]. symmetry. apply P0. destruct Rv as [E'|E']; [rewrite <- E'; left; auto|apply in_rev; rewrite <- E'; left; auto].
Qed.
Lemma verts_some (f : face) n d : covers f n d -> exists ts, Forall2 (tri_verts (fst f)) (snd f) ts.
Proof.
  intros (_ & _ & Tv & _). induction (snd f) as [|t l IH]; [exists []; constructor|]. destruct IH as (ts & Fo); [intros t' I; apply Tv; right; auto|]. destruct (Tv t ltac:(left; auto)) as (a & b & c & Vt & _). exists ((a, b, c) :: ts). constructor; auto.
Qed.
Lemma sides_some (fs : list (face * vec * R)) : (forall f n d, In (f, n, d) fs -> covers f n d /\ simple_outline (fst f)) -> exists T, sides fs T.
Proof.
  intros H. assert (G : exists Ts, Forall2 (fun f ts => Forall2 (tri_verts (fst f)) (snd f) ts) (solid_of fs) Ts).
  { induction fs as [|((f, n), d) fs IH]; [exists []; constructor|]. destruct IH as (Ts & Fo); [intros; apply H; right; auto|]. destruct (verts_some f n d (proj1 (H f n d ltac:(left; auto)))) as (ts & F1). exists (ts :: Ts). constructor; auto. }
  destruct G as (Ts & Fo). exists (concat Ts). split; auto. exists Ts. auto.
Qed.
Section Plan.
Context (plan : list (R * R)) (h : R) (tr : vec) (phi : R) (name : str) (names : option (list str)) (fn cn rf rc : str) (ws : list wall_t) (t : vec).
Context (H : floor_plan plan h tr phi name names fn cn rf rc = Ok ws) (Mv : move_used tr t).
Notation fl := (corners plan 0 t phi).
Context (Sm : simple_outline fl) (Hh : 0 < h).
Lemma fl_z p : In p fl -> vz p = vz t.
Proof. intros I. pose proof (corners_plane plan 0 t phi p I) as X. rewrite dot_ez in X. lra. Qed.
Lemma up_simple h' l : simple_outline l -> simple_outline (map (up_by h') l).
Proof.
  intros (N & L & S). assert (Inj : forall a b, up_by h' a = up_by h' b -> a = b) by (intros a b E; unfold up_by in E; dvec a; dvec b; injection E as E1 E2 E3; f_equal; lra).
  split; [apply FinFun.Injective_map_NoDup; auto; exact Inj|]. split; [rewrite map_length; auto|]. intros a b a' b' m I I' Ne Sa Sb. rewrite <- cyc_pairs_map in I, I'. apply in_map_iff in I, I'. destruct I as ((x, y) & E & I), I' as ((x', y') & E' & I'). cbn [fst snd] in *. injection E as <- <-. injection E' as <- <-.
  assert (Dn : forall u v, on_segment (up_by h' u) (up_by h' v) m -> on_segment u v (up_by (- h') m)) by (intros u v (s & Hs & ->); exists s; split; auto; unfold up_by, seg_point; dvec u; dvec v; vunf; f_equal; ring).
  assert (Bk : forall v, up_by (- h') m = v -> m = up_by h' v) by (intros v <-; unfold up_by; dvec m; vunf; f_equal; ring).
  destruct (S x y x' y' (up_by (- h') m) I I' ltac:(congruence) (Dn _ _ Sa) (Dn _ _ Sb)) as [(A & B)|(A & B)]; [left|right]; auto.
Qed.
Definition up_side (p : polygon) (v : R) : face * vec * R := (p_pts p, p_tri p, V 0 0 v, - dot (V 0 0 v) (hd vzero (p_pts p))).
(** The parts of the solid. *)
Lemma plan_parts : exists (walls : list wall_t) (fp cp : str * polygon) (vf vc : R), (vf = 1 \/ vf = -1) /\ (vc = 1 \/ vc = -1) /\ In (fn, fp) ws /\ sides_of ws = map (fun w => face_of (snd (snd w))) walls ++ [up_side (snd fp) vf; up_side (snd cp) vc] /\
  (p_pts (snd fp) = fl \/ p_pts (snd fp) = rev fl) /\ (p_pts (snd cp) = map (up_by h) fl \/ p_pts (snd cp) = rev (map (up_by h) fl)) /\
  (forall f n d, In (f, n, d) (map (fun w => face_of (snd (snd w))) walls) -> exists e, In e (cyc_pairs fl) /\ forall v, In v (fst f) -> In v (wall_over (V 0 0 h) e)) /\
  exists T, loose_shell (sides_of ws) T.
Proof.
  destruct (plan_facts _ _ _ _ _ _ _ _ _ _ _ H) as (wn & t' & fp & cp & walls & vf & vc & W & Mv' & Ew & ND & N1 & N2 & Le & SN & _ & Mf & Mc & Sf & Sc & Ef & Ec & Af & Ac & K1 & K2 & K3 & K4 & Nm & Gd & Fo).
  assert (t' = t) as -> by (destruct Mv as [(A & ->)|(A & ->)], Mv' as [(B & ->)|(B & ->)]; auto; contradiction).
  set (A := vz (vector_area2 (drawn plan))) in *. cbn zeta in *. rewrite ceiling_up in K3, K4. change (fun p => vadd p (V 0 0 h)) with (up_by h) in K3, K4.
  assert (HF : p_pts (snd fp) = fl \/ p_pts (snd fp) = rev fl) by (destruct (Rlt_dec 0 (vf * A)) as [X|X]; [left; auto|right; apply K2; destruct Sf as [-> | ->]; lra]).
  assert (HC : p_pts (snd cp) = map (up_by h) fl \/ p_pts (snd cp) = rev (map (up_by h) fl)) by (destruct (Rlt_dec 0 (vc * A)) as [X|X]; [left; auto|right; apply K4; destruct Sc as [-> | ->]; lra]).
  clear K1 K2 K3 K4 Af Ac Gd SN.
  assert (SmF : simple_outline (p_pts (snd fp))) by (destruct HF as [-> | ->]; auto using simple_rev). assert (SmC : simple_outline (p_pts (snd cp))) by (destruct HC as [-> | ->]; auto using simple_rev, up_simple).
  assert (PF : in_plane ez (vz t) (p_pts (snd fp))) by (intros p I; rewrite dot_ez; apply fl_z; destruct HF as [E|E]; rewrite E in I; auto; apply in_rev; auto).
  assert (PC : in_plane ez (vz t + h) (p_pts (snd cp))). { intros p I. rewrite dot_ez. assert (I' : In p (map (up_by h) fl)) by (destruct HC as [E|E]; rewrite E in I; auto; apply in_rev; auto). apply in_map_iff in I'. destruct I' as (v & <- & Iv). unfold up_by. vunf. rewrite (fl_z v Iv). ring. }
  assert (Efs : sides_of ws = map (fun w => face_of (snd (snd w))) walls ++ [up_side (snd fp) vf; up_side (snd cp) vc]) by (rewrite Ew; unfold sides_of; rewrite map_app; cbn [map snd]; unfold up_side; rewrite Ec, Ef; reflexivity).
  assert (Wall : forall w, In w walls -> exists e, In e (cyc_pairs fl) /\ (wall_pts w = wall_over (V 0 0 h) e \/ wall_pts w = rev (wall_over (V 0 0 h) e)) /\ make_polygon (wall_pts w) None None = Ok (snd (snd w))).
  { clear -Fo. induction Fo as [|e w es l (Aw & Bw & _) F IH]; intros x Ix0; [destruct Ix0|]. destruct Ix0 as [Ex|Ix]; [subst; exists e; simpl; auto|]. destruct (IH x Ix) as (e' & I & X). exists e'. simpl. auto. }
  assert (Cov : forall f n d, In (f, n, d) (sides_of ws) -> covers f n d /\ simple_outline (fst f)).
  { rewrite Efs. intros f n d I. apply in_app_iff in I. destruct I as [I|[I|[I|[]]]].
    - apply in_map_iff in I. destruct I as (w & E & Iw). injection E as <- <- <-. destruct (Wall w Iw) as (e & Ie & Ho & Mk). change (covers (wall_pts w, p_tri (snd (snd w))) (p_vn (snd (snd w))) (- dot (p_vn (snd (snd w))) (hd vzero (wall_pts w))) /\ simple_outline (wall_pts w)).
      destruct Ho as [Ho|Ho]; rewrite Ho in Mk; unfold wall_over in Mk; cbn [rev app] in Mk; apply wall_side in Mk; auto; destruct e as (e1, e2); clear; cbn [fst snd]; dvec e1; dvec e2; vunf; f_equal; ring.
    - injection I as <- <- <-. split; auto. rewrite <- Ef. apply (level_side (snd fp) vf (vz t)); auto.
    - injection I as <- <- <-. split; auto. rewrite <- Ec. apply (level_side (snd cp) vc (vz t + h)); auto. }
  assert (HW : forall f n d, In (f, n, d) (map (fun w => face_of (snd (snd w))) walls) -> exists e, In e (cyc_pairs fl) /\ forall v, In v (fst f) -> In v (wall_over (V 0 0 h) e)).
  { intros f n d I. apply in_map_iff in I. destruct I as (w & E & Iw). injection E as <- <- <-. destruct (Wall w Iw) as (e & Ie & Ho & _). exists e. split; auto. cbn [fst]. fold (wall_pts w). intros v Iv. destruct Ho as [Ho|Ho]; rewrite Ho in Iv; auto. apply in_rev; auto. }
  destruct (sides_some _ Cov) as (T & Sd). exists walls, fp, cp, vf, vc. split; auto. split; auto. split; [rewrite Ew; apply in_or_app; simpl; auto|]. split; [exact Efs|]. split; auto. split; auto. split; auto. exists T. split; auto.
  exists (map (fun e => rev (wall_over (V 0 0 h) e)) (cyc_pairs fl) ++ [fl; rev (map (fun p => vadd p (V 0 0 h)) fl)]). split; [|apply prism_closed].
  rewrite Efs. unfold solid_of. rewrite map_app, map_map. apply Forall2_app.
  - clear -Fo. induction Fo as [|e w es l (_ & B & _) F IH]; cbn [map]; constructor; auto. cbn [face_of fst snd]. fold (wall_pts w). destruct B as [-> | ->]; auto.
  - cbn [map]. unfold up_side. constructor; [|constructor; [|constructor]]; cbn [fst snd].
    + destruct HF as [-> | ->]; auto. right. rewrite rev_involutive. auto.
    + change (fun p => vadd p (V 0 0 h)) with (up_by h). destruct HC as [-> | ->]; auto.
Qed.
Lemma plan_points_in u q bs : ok_faces (sides_of ws) -> seen_well q (sides_of ws) bs -> (forall f n d, In (f, n, d) (sides_of ws) -> off_face q f n d) ->
  cross u ez <> vzero -> vz t < vz q < vz t + h -> ~ on_outline fl (foot (vz t) q) ->
  solid_point_inside (map fst (all_polys ws)) q = Ok (negb (winding ez u (foot (vz t) q) fl =? 0)%Z).
Proof.
  intros Ofs Sw Of Nu Zq No. destruct plan_parts as (walls & fp & cp & vf & vc & Sf & Sc & _ & Efs & HF & HC & HW & T & Sh).
  assert (So : solid_of (sides_of ws) = map fst (all_polys ws)) by (unfold solid_of, sides_of, all_polys; rewrite !map_map; reflexivity).
  rewrite <- So. pose proof (proj1 Sh) as Sd. rewrite Efs in Sd.
  destruct (above_way fl (vz t) h Hh fl_z (map (fun w => face_of (snd (snd w))) walls) (p_pts (snd fp), p_tri (snd fp)) (p_pts (snd cp), p_tri (snd cp)) (V 0 0 vf) _ _ vc Sc HF HC HW T Sd u q Nu Zq No) as (p & n & z & Op & Wy & On).
  change (V 0 0 1) with ez in On. rewrite <- On. apply (loose_path _ T p q n z bs); auto. rewrite Efs. intros E0. apply app_eq_nil in E0. destruct E0 as (_ & E0). discriminate E0.
Qed.
Lemma turn_two : cross (V 1 0 0) ez <> vzero.
Proof. unfold ez. vunf. intros E. injection E. lra. Qed.
(** The same with the triangles of the floor. *)
Lemma plan_points_floor q bs : ok_faces (sides_of ws) -> seen_well q (sides_of ws) bs -> (forall f n d, In (f, n, d) (sides_of ws) -> off_face q f n d) ->
  vz t < vz q < vz t + h -> ~ on_outline fl (foot (vz t) q) ->
  exists (p : str * polygon) (b : bool), In (fn, p) ws /\ solid_point_inside (map fst (all_polys ws)) q = Ok b /\ (b = true <-> in_mesh (p_pts (snd p), p_tri (snd p)) (foot (vz t) q)).
Proof.
  intros Ofs Sw Of Zq No. pose proof (plan_points_in (V 1 0 0) q bs Ofs Sw Of turn_two Zq No) as X. destruct plan_parts as (walls & fp & cp & vf & vc & Sf & Sc & If & Efs & HF & HC & HW & T & ((Cov & _) & _)).
  exists fp. eexists. split; auto. split; [exact X|]. set (q0 := foot (vz t) q) in *. destruct (Cov (p_pts (snd fp), p_tri (snd fp)) (V 0 0 vf) (- dot (V 0 0 vf) (hd vzero (p_pts (snd fp))))) as (Cv & SmF); [rewrite Efs; apply in_or_app; right; left; reflexivity|]. cbn [fst] in SmF.
  assert (Z0 : forall v, In v (p_pts (snd fp)) -> vz v = vz t) by (intros v I; apply fl_z; destruct HF as [E|E]; rewrite E in I; auto; apply in_rev; auto).
  assert (Dn : - dot (V 0 0 vf) (hd vzero (p_pts (snd fp))) = - (vf * vz t)). { destruct SmF as (_ & L & _). destruct (p_pts (snd fp)) as [|v r]; [cbn in L; lia|]. cbn [hd]. rewrite <- (Z0 v) by (left; auto). vunf. ring. }
  rewrite Dn in Cv. assert (Q : on_plane (V 0 0 vf) (- (vf * vz t)) q0) by (unfold on_plane, q0, foot; vunf; ring).
  assert (Nu : cross (V 1 0 0) (V 0 0 vf) <> vzero) by (vunf; intros E; injection E; destruct Sf; subst; lra).
  assert (Of' : ~ on_outline (p_pts (snd fp)) q0) by (intros O; apply No; destruct HF as [E|E]; rewrite E in O; auto; rewrite <- (rev_involutive fl); apply outline_rev; auto).
  pose proof (region_all _ _ _ Cv SmF q0 (V 1 0 0) Q Nu) as R. cbn [fst] in R. pose proof (winding_mesh _ _ _ (V 1 0 0) q0 Cv Q Nu) as (W0 & W1 & _). cbn [fst] in W0, W1.
  assert (Wz : winding (V 0 0 vf) (V 1 0 0) q0 (p_pts (snd fp)) = winding ez (V 1 0 0) q0 (p_pts (snd fp)) \/ winding (V 0 0 vf) (V 1 0 0) q0 (p_pts (snd fp)) = (- winding ez (V 1 0 0) q0 (p_pts (snd fp)))%Z).
  { destruct Sf as [Ev|Ev]; [left; rewrite Ev; auto|right]. replace (V 0 0 vf) with (vopp ez) by (rewrite Ev; unfold ez; vunf; f_equal; lra). apply (winding_opp ez (- vz t)); auto; [unfold unit, ez; vunf; ring| |unfold on_plane, q0, foot, ez; vunf; ring]. intros v Iv. unfold on_plane, ez. pose proof (Z0 v Iv). vunf. lra. }
  assert (Wf : winding ez (V 1 0 0) q0 (p_pts (snd fp)) = winding ez (V 1 0 0) q0 fl \/ winding ez (V 1 0 0) q0 (p_pts (snd fp)) = (- winding ez (V 1 0 0) q0 fl)%Z) by (destruct HF as [-> | ->]; rewrite ?winding_rev; auto).
  rewrite negb_true_iff, Z.eqb_neq. split.
  - intros N. apply W1. lia.
  - intros I. apply R in I. destruct I as [I|I]; [contradiction|]. lia.
Qed.
Lemma plan_points_out q : vz q < vz t \/ vz t + h < vz q -> solid_point_inside (map fst (all_polys ws)) q = Ok false.
Proof.
  clear Sm. intros Zq. destruct (plan_structure _ _ _ _ _ _ _ _ _ _ _ H) as (wn & t' & walls & F & C & _ & Mv' & Le & _ & _ & Ow & Fo & HF & HC & _).
  assert (t' = t) as -> by (destruct Mv as [(A & ->)|(A & ->)], Mv' as [(B & ->)|(B & ->)]; auto; contradiction).
  assert (So : map fst (map fst (all_polys ws)) = outlines ws) by (unfold outlines, all_polys; rewrite !map_map; reflexivity).
  assert (Bv : forall v, In v (concat (outlines ws)) -> vz t <= vz v <= vz t + h).
  { rewrite Ow. intros v I. apply in_concat in I. destruct I as (l & Il & Iv). apply in_app_iff in Il. destruct Il as [Il|[<-|[<-|[]]]].
    - assert (Ex : exists e, In e (cyc_pairs fl) /\ In v (wall_over (V 0 0 h) e)). { clear -Fo Il Iv. induction Fo as [|e w es r Ho F IH]; [destruct Il|]. destruct Il as [->|Il]; [exists e; split; [left; auto|]; destruct Ho as [E|E]; rewrite E in Iv; auto; apply in_rev; auto|]. destruct (IH Il) as (e' & A & B). exists e'. simpl. auto. }
      destruct Ex as ((e1, e2) & Ie & Iw). destruct (ShellProofs7.cyc_members _ _ _ Ie) as (I1 & I2). pose proof (fl_z _ I1). pose proof (fl_z _ I2). destruct Iw as [<-|[<-|[<-|[<-|[]]]]]; cbn [fst snd]; vunf; lra.
    - assert (I' : In v fl) by (destruct HF as [E|E]; rewrite E in Iv; auto; apply in_rev; auto). rewrite (fl_z v I'). lra.
    - assert (I' : In v (corners plan h t phi)) by (destruct HC as [E|E]; rewrite E in Iv; auto; apply in_rev; auto). pose proof (corners_plane plan h t phi v I') as X. rewrite dot_ez in X. lra. }
  apply outside_extent; rewrite So.
  - rewrite Ow, concat_app. cbn [concat]. intros E. apply app_eq_nil in E. destruct E as (_ & E). apply app_eq_nil in E. destruct E as (E & _). assert (length F = length plan) by (destruct HF as [-> | ->]; rewrite ?rev_length; unfold corners; rewrite map_length; auto). rewrite E in H0. cbn in H0. lia.
  - intros E. destruct (E vz ltac:(simpl; auto)) as ((a & Ia & La) & (b & Ib & Lb)). pose proof (Bv a Ia). pose proof (Bv b Ib). lra.
Qed.
End Plan.
