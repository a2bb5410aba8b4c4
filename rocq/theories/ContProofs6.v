(** The class Mesh as a whole; examples. *)
From Coq Require Import Ascii String Reals List Bool Arith ZArith Lia Lra.
From Verif Require Import Prelude MeshModel VecModel VecProofs GeomModel TriModel TriProofs MshModel MshSpec MshProofs MshProofs6 MshProofs7 MshProofs8
  ContModel ContSpec ContProofs ContProofs2 ContProofs3 ContProofs4 ContProofs5.
Import ListNotations.
Local Open Scope nat_scope.

Lemma dvals_tagged {X} (key : X -> str) l : dvals (tagged key l) = l.
Proof. unfold dvals, tagged. rewrite map_map. cbn [snd]. apply map_id. Qed.

Section W.
  Context {P T : Type} (uid : P -> str) (suid sname : T -> str) (svolume : T -> R) (walls : T -> list P).
  Context (facing : P -> P -> bool) (triang : nat -> P -> list vec -> result (list vec * list element)).
  Context (tetra : T -> nat -> dict str (list vec) -> result (list vec * list element)).

  Lemma add_building_spec (b : list (list T)) : let ss := concat b in
    (exists m, wm_add_building uid suid walls wm_empty b = (m, None) /\ pm_polys (wm_poly m) = tagged uid (flat_map walls ss) /\ sm_solids (wm_solid m) = tagged suid ss /\
       pm_data (wm_poly m) = md_empty /\ sm_data (wm_solid m) = md_empty /\ NoDup (map uid (flat_map walls ss)) /\ NoDup (map suid ss)) \/
    (exists m, wm_add_building uid suid walls wm_empty b = (m, Some MeshError) /\ (~ NoDup (map uid (flat_map walls ss)) \/ ~ NoDup (map suid ss)) /\
       exists ss1 s ss2, ss = ss1 ++ s :: ss2 /\
        ((sm_solids (wm_solid m) = tagged suid ss1 /\ pm_polys (wm_poly m) = tagged uid (flat_map walls ss1) /\ In (suid s) (map suid ss1)) \/
         exists ps1 p ps2, walls s = ps1 ++ p :: ps2 /\ sm_solids (wm_solid m) = tagged suid (ss1 ++ [s]) /\
           pm_polys (wm_poly m) = tagged uid (flat_map walls ss1 ++ ps1) /\ In (uid p) (map uid (flat_map walls ss1 ++ ps1)))).
  Proof.
    intros ss. rewrite building_flat. fold ss. generalize ss. clear ss b. intros ss.
    destruct (solids_spec uid suid walls ss wm_empty) as [(E & N1 & N2)|(ss1 & s & ss2 & ES & [(E & I)|(ps1 & p & ps2 & EW & E & I)])]; [constructor|constructor| | |].
    - left. rewrite E. eexists. split; [reflexivity|]. cbn. auto 6.
    - right. rewrite E. eexists. split; [reflexivity|]. split.
      + right. rewrite ES, map_app. cbn [map]. intros N. apply NoDup_remove_2 in N. apply N. apply in_or_app. left. exact I.
      + exists ss1, s, ss2. split; [exact ES|]. left. cbn. auto.
    - right. rewrite E. eexists. split; [reflexivity|]. split.
      + left. rewrite ES, flat_map_app. cbn [flat_map]. rewrite EW, <- app_assoc, app_assoc. rewrite map_app. cbn [app map]. intros N. apply NoDup_remove_2 in N. apply N. apply in_or_app. left. exact I.
      + exists ss1, s, ss2. split; [exact ES|]. right. exists ps1, p, ps2. cbn. auto.
  Qed.

  Lemma whole_spec b m m' : (forall s, (0 <= svolume s)%R) -> wm_add_building uid suid walls wm_empty b = (m, None) -> wm_generate sname svolume facing triang tetra m true = (m', None) ->
    exists parts ps bv, let polys := tagged uid (flat_map walls (concat b)) in
      (forall k x, nth_error parts k = Some x -> meshed facing triang polys [] parts k x) /\ length parts = length polys /\
      vertices_per_polygon (wm_poly m') = Ok bv /\ bv = combine (map uid (flat_map walls (concat b))) (map part_vs parts) /\
      Forall2 (accepted svolume tetra bv) (concat b) ps /\
      (NoDup (map sname (concat b)) -> owned_once (sm_data (wm_solid m')) /\
         forall i s p, nth_error (concat b) i = Some s -> nth_error ps i = Some p -> owns (sm_data (wm_solid m')) (sname s) (fst p) (snd p)) /\
      Forall2 (has_volume (md_vs (sm_data (wm_solid m')))) (md_els (sm_data (wm_solid m'))) (md_sizes (sm_data (wm_solid m'))) /\
      (Rabs (sum (md_sizes (sm_data (wm_solid m'))) - sum (map svolume (concat b))) <= sum (map (fun s => 1 / 100000000 + 1 / 1000000 * svolume s) (concat b)))%R.
  Proof.
    intros HV EB EG. destruct (add_building_spec b) as [(m0 & E0 & EP & ES & DP & DS & NP & NS)|(m0 & E0 & _)]; [|congruence].
    rewrite EB in E0. injection E0 as <-. unfold wm_generate in EG.
    destruct (pm_generate facing triang (wm_poly m) []) as [[pm fx] [e|]] eqn:PG; [discriminate|].
    destruct (vertices_per_polygon pm) as [bv|e] eqn:VP; [|discriminate].
    destruct (sm_generate sname svolume tetra (wm_solid m) bv) as [sm e] eqn:SG. injection EG as <- ->. cbn [wm_poly wm_solid].
    assert (NK : NoDup (dkeys (pm_polys (wm_poly m)))) by (rewrite EP, dkeys_tagged; exact NP).
    destruct (gen_ok facing triang _ _ _ _ NK PG) as (parts & LP & M & _ & _ & _ & _ & _ & _ & VP' & _). rewrite EP in LP, M, VP'. rewrite dkeys_tagged in VP'.
    destruct (sm_gen_ok sname svolume tetra _ _ _ HV SG) as (ps & A & _ & D & V). rewrite ES, dvals_tagged in A, D.
    destruct (sm_gen_sizes sname svolume tetra _ _ _ [] HV SG) as (ls & Z & C). { rewrite DS. constructor. }
    rewrite ES, dvals_tagged in C. exists parts, ps, bv. split; [exact M|]. split; [exact LP|]. split; [exact VP|]. split; [congruence|]. split; [exact A|].
    split; [|split; [exact V|]].
    - intros NN. rewrite DS in D. assert (L : length (map sname (concat b)) = length ps) by (rewrite map_length; exact (f2_len _ _ _ A)). split.
      + rewrite D. exact (assemble_once (map sname (concat b)) ps [] NN L).
      + intros i s p I J. destruct (split_nth _ _ _ I) as (l1 & l2 & E1 & L1). destruct (@split_nth piece ps i p J) as (p1 & p2 & E2 & L2).
        rewrite D, E1, E2, map_app. cbn [map]. apply owns_sizes. apply assemble_owns.
        * rewrite map_length. congruence.
        * rewrite map_length in L |- *. rewrite E1, E2, !app_length in L. cbn [length] in L. unfold piece in *. lia.
        * rewrite E1, map_app in NN. cbn [map] in NN. apply NoDup_remove_2 in NN. intros K. apply NN. apply in_or_app. right. exact K.
    - rewrite Z. cbn [app]. eapply Rle_trans; [exact (sum_close svolume _ _ C)|]. apply Req_le. f_equal. apply map_ext. intros s. rewrite Rabs_right; [reflexivity|]. apply Rle_ge, HV.
  Qed.
End W.

(** Examples: a polygon is a number and a plane; the sign is its side. *)
Definition flat : Type := (nat * Z)%type.
Definition flat_uid (p : flat) : str := [ascii_of_nat (fst p)].
Definition flat_facing (p q : flat) : bool := (snd p + snd q =? 0)%Z.
(** A triangle of its own and the fixed points. *)
Definition flat_mesh (k : nat) (p : flat) (pts : list vec) : result (list vec * list element) :=
  Ok ([V 0 0 (INR (fst p)); V 1 0 (INR (fst p)); V 0 1 (INR (fst p))] ++ pts, [[0; 1; 2]]).
(** The same, but it fails for the polygon with number 9 and is ragged for 8. *)
Definition flat_mesh_bad (k : nat) (p : flat) (pts : list vec) : result (list vec * list element) :=
  if fst p =? 9 then Err MeshError else if fst p =? 8 then Ok ([], [[0; 1; 2]; [0]]) else flat_mesh k p pts.
Definition flats (l : list flat) : polymesh := PM (tagged flat_uid l) md_empty.

(** A solid is a name and a tetrahedron. *)
Definition pyramid (h : R) : list vec := [V 0 0 0; V 1 0 0; V 0 1 0; V 0 0 h].
Definition pyramid_volume (h : R) : R := tetrahedron_volume (V 0 0 0) (V 1 0 0) (V 0 1 0) (V 0 0 h).
Record tent := Tent { tent_uid : nat; tent_name : nat; tent_height : R }.
Definition tuid (s : tent) : str := [ascii_of_nat (tent_uid s)].
Definition tname (s : tent) : str := [ascii_of_nat (tent_name s)].
Definition tvolume (s : tent) : R := pyramid_volume (tent_height s).
(** The first attempt has no elements. *)
Definition tent_mesh (s : tent) (k : nat) (_ : dict str (list vec)) : result (list vec * list element) :=
  match k with O => Ok (pyramid (tent_height s), []) | _ => Ok (pyramid (tent_height s), [[0; 1; 2; 3]]) end.
(** No attempt has elements. *)
Definition no_mesh (s : tent) (k : nat) (_ : dict str (list vec)) : result (list vec * list element) := Ok ([], []).
Definition tents (l : list tent) : solidmesh := SM (tagged tuid l) md_empty.

Lemma tvolume_least s : (1 / 12000000 <= tvolume s)%R.
Proof. exact (volume_least (V 0 0 0) (V 1 0 0) (V 0 1 0) (V 0 0 (tent_height s))). Qed.
Lemma tvolume_pos s : (0 <= tvolume s)%R.
Proof. pose proof (tvolume_least s). lra. Qed.
Lemma isclose_self x : isclose x x GEOM_RTOL ATOL8 = true.
Proof. apply isclose_spec. unfold close_volume. rewrite Rminus_eq_0, Rabs_R0. pose proof (Rabs_pos x). lra. Qed.
Lemma not_zero s : isclose 0 (tvolume s) GEOM_RTOL ATOL8 = false.
Proof.
  apply isclose_false. unfold close_volume. pose proof (tvolume_least s). rewrite Rminus_0_l, Rabs_Ropp, Rabs_right by lra. lra.
Qed.
Lemma not_minus s : isclose (-1) (tvolume s) GEOM_RTOL ATOL8 = false.
Proof. apply isclose_false, minus_one, tvolume_pos. Qed.
Lemma tent_try s bv : try_mesh tvolume tent_mesh SOLID_MESH_MAX_TRIES 0 s bv (-1, [], [])%R = Ok (pyramid (tent_height s), [[0; 1; 2; 3]]).
Proof.
  unfold SOLID_MESH_MAX_TRIES. cbn [try_mesh]. rewrite not_minus. cbn [tent_mesh rbind fst snd]. change (total_volume (pyramid (tent_height s)) []) with (@Ok R 0%R). cbn [rbind].
  rewrite not_zero. change (total_volume (pyramid (tent_height s)) [[0; 1; 2; 3]]) with (Ok (0 + tvolume s)%R). cbn [rbind]. rewrite Rplus_0_l, isclose_self. reflexivity.
Qed.
Lemma no_try s bv n k : try_mesh tvolume no_mesh n k s bv (0, [], [])%R = Err MeshError.
Proof.
  revert k. induction n as [|n IH]; intros k; cbn [try_mesh]; rewrite not_zero; [reflexivity|]. cbn [no_mesh rbind fst snd]. change (total_volume [] []) with (@Ok R 0%R). cbn [rbind]. apply IH.
Qed.
Lemma no_tries s bv : try_mesh tvolume no_mesh SOLID_MESH_MAX_TRIES 0 s bv (-1, [], [])%R = Err MeshError.
Proof.
  unfold SOLID_MESH_MAX_TRIES. generalize 9. intros n. cbn [try_mesh]. rewrite not_minus. cbn [no_mesh rbind fst snd]. change (total_volume [] []) with (@Ok R 0%R). cbn [rbind]. apply no_try.
Qed.
