(** The nearest-neighbour tree of stars, sub-systems and binary orbits (src/Nbody/NbodySystemTree.cpp, with the arrays of
    src/Headers/NbodySystemTree.h:50-74, SystemParticle.h:33-60 and BinaryOrbit.h).  FLOAT is R, -1 as an index is None, arrays are
    functions or lists and every write beyond the capacity of an array is UB.  A loop over k < ndim acts on every component. *)
From Verif Require Import Prelude Vec M_Box M_Hermite.
From Coq Require Import Reals.
Local Open Scope R_scope.

(** Constants.h:72 (FLOAT) and 90; SystemParticle.h:33. *)
Definition big_number : R := 99 * 10 ^ 19.
Definition Ncompmax : nat := 4.

Section NNTree.
Variable ndim : nat.

(** * Construction: NNTreeCell as far as CreateNbodySystemTree uses it *)
Record nnode := mknn { n_c1 : option nat; n_c2 : option nat; n_par : option nat; n_near : option nat;
  n_comp : nat; n_nstar : nat; n_radius : R; n_rsqd : R; n_rpos : vec }.
Definition tree := nat -> nnode.
Definition put (T : tree) (i : nat) (x : nnode) : tree := fun j => if Nat.eqb j i then x else T j.
Definition distsqd (x y : vec) : R := dot ndim (vsub x y) (vsub x y).
Definition opt_is (o : option nat) (j : nat) : bool := match o with Some i => Nat.eqb i j | None => false end.

(** Lines 142-163: all nodes are initialised, the first Nstar get the stars. *)
Definition node0 : nnode := mknn None None None None 0 0 0 big_number_dp (fun _ => 0).
Definition leaf (r : vec) : nnode := mknn None None None None 1 1 0 big_number_dp r.
Definition init_tree (Nstar : nat) (r : nat -> vec) : tree := fun i => if Nat.ltb i Nstar then leaf (r i) else node0.
(** Lines 172-175. *)
Definition freelist (T : tree) (Nnode : nat) : list nat :=
  filter (fun i => match n_par (T i) with None => true | _ => false end) (seq 0 Nnode).
(** Lines 183-196: the nearest of the free nodes to node i. *)
Definition near_step (T : tree) (i : nat) (acc : option nat * R) (j : nat) : option nat * R :=
  if Nat.eqb i j then acc
  else let drsqd := distsqd (n_rpos (T i)) (n_rpos (T j)) in
       if rltb drsqd (snd acc) then (Some j, drsqd) else acc.
Definition nearest (T : tree) (free : list nat) (i : nat) : option nat * R := fold_left (near_step T i) free (None, big_number).
Definition set_near (p : nnode) (x : option nat * R) : nnode :=
  mknn (n_c1 p) (n_c2 p) (n_par p) (fst x) (n_comp p) (n_nstar p) (n_radius p) (snd x) (n_rpos p).
(** Lines 182-199. *)
Definition find_nearest (free : list nat) (T : tree) : tree := fold_left (fun T i => put T i (set_near (T i) (nearest T free i))) free T.
(** Lines 212-228: nodes i and j become the children of a new node. *)
Definition set_par (p : nnode) (c : nat) : nnode :=
  mknn (n_c1 p) (n_c2 p) (Some c) (n_near p) (n_comp p) (n_nstar p) (n_radius p) (n_rsqd p) (n_rpos p).
Definition join (Nnodemax : nat) (i j : nat) (st : tree * nat) : res (tree * nat) :=
  let '(T, Nnode) := st in
  if Nat.ltb Nnode Nnodemax then
    let rpos := fun k => 1 / 2 * (n_rpos (T i) k + n_rpos (T j) k) in
    let p := T Nnode in
    let p := mknn (Some i) (Some j) (n_par p) (n_near p) (n_comp (T i) + n_comp (T j)) (n_nstar (T i) + n_nstar (T j))
               (sqrt (distsqd rpos (n_rpos (T i)))) (n_rsqd p) rpos in
    let T := put T i (set_par (T i) Nnode) in
    let T := put T j (set_par (T j) Nnode) in
    Ok (put T Nnode p, S Nnode)
  else UB.
(** Lines 204-232. *)
Fixpoint pair_row (Nnodemax i : nat) (js : list nat) (st : tree * nat) : res (tree * nat) :=
  match js with
  | [] => Ok st
  | j :: js => let! st := if opt_is (n_near (fst st i)) j && opt_is (n_near (fst st j)) i then join Nnodemax i j st else Ok st in
               pair_row Nnodemax i js st
  end.
Fixpoint pair_all (Nnodemax : nat) (free : list nat) (st : tree * nat) : res (tree * nat) :=
  match free with
  | [] => Ok st
  | i :: js => let! st := pair_row Nnodemax i js st in pair_all Nnodemax js st
  end.
(** Lines 168-238. *)
Fixpoint grow (fuel Nnodemax : nat) (st : tree * nat) : res (tree * nat) :=
  let '(T, Nnode) := st in
  if Nat.ltb Nnode Nnodemax then
    let free := freelist T Nnode in
    if Nat.eqb (length free) 1 then Ok st
    else match fuel with
         | O => NoFuel
         | S fuel => let! st := pair_all Nnodemax free (find_nearest free T, Nnode) in grow fuel Nnodemax st
         end
  else Ok st.
(** Lines 121-248; [Nnodemax] is at least 2*Nstar after AllocateMemory (lines 77-92). *)
Definition CreateNbodySystemTree (fuel Nnodemax Nstar : nat) (r : nat -> vec) : res (tree * nat) :=
  grow fuel Nnodemax (init_tree Nstar r, Nstar).

(** * Sub-systems *)
(** Positions, velocities, accelerations and their derivatives, which are all treated alike. *)
Inductive quantity := Qr | Qv | Qa | Qadot | Qa2dot | Qa3dot.
(** What is used of a star. *)
Record starp := mkstarp { sp_m : R; sp_h : R; sp_gpot : R; sp_x : quantity -> vec }.
(** A pointer to a star or to a system. *)
Inductive ent := EStar (i : nat) | ESys (s : nat).
(** SystemParticle as far as BuildSubSystems sets it. *)
Record sysp := mksys { y_inode : nat; y_dt : R; y_m : R; y_h : R; y_gpei : R; y_x : quantity -> vec; y_Ncomp : nat; y_children : list ent }.
(** The rest of NNTreeCell; [l_list] holds the first Nchildlist entries of childlist. *)
Record cell := mkcell { l_m : R; l_h : R; l_gpe : R; l_gpei : R; l_tcross : R; l_comp : nat; l_x : quantity -> vec; l_list : list ent }.
(** BinaryOrbit.h. *)
Inductive systype := Binary | Triple | Quadruple.
Record orb := mkorb { o_c1 : nat; o_c2 : nat; o_m : R; o_r : vec; o_v : vec; o_angmom : vec; o_binen : R; o_sma : R; o_period : R; o_ecc : R; o_q : R; o_type : systype }.

(** Lines 629-638. *)
Definition orb_angmom (mu : R) (dr dv : vec) : vec :=
  match ndim with
  | 2%nat => fun k => match k with 2%nat => mu * (dr 0%nat * dv 1%nat - dr 1%nat * dv 0%nat) | _ => 0 end
  | 3%nat => fun k => match k with
      | 0%nat => mu * (dr 1%nat * dv 2%nat - dr 2%nat * dv 1%nat)
      | 1%nat => mu * (dr 2%nat * dv 0%nat - dr 0%nat * dv 2%nat)
      | 2%nat => mu * (dr 0%nat * dv 1%nat - dr 1%nat * dv 0%nat)
      | _ => 0 end
  | _ => fun _ => 0
  end.
Definition orb_angmomsqd (l : vec) : R :=
  match ndim with 2%nat => l 2%nat * l 2%nat | 3%nat => dot ndim l l | _ => 0 end.
(** Lines 609-675: the orbit that is recorded, if the pair is bound.  angmom has three components, those not set are 0. *)
Definition ComputeNewBinaryOrbit (c1 c2 Nstar : nat) (c l1 l2 : cell) : option orb :=
  let mu := l_m l1 * l_m l2 / l_m c in
  let dv := vsub (l_x l1 Qv) (l_x l2 Qv) in
  let dr := vsub (l_x l1 Qr) (l_x l2 Qr) in
  let angmom := orb_angmom mu dr dv in
  let angmomsqd := orb_angmomsqd angmom in
  let invdrmag := 1 / (sqrt (dot ndim dr dr) + small_number_dp) in
  let binen := 1 / 2 * dot ndim dv dv - l_m c * invdrmag in
  if rleb 0 binen then None
  else
    let sma := - (1 / 2) * l_m c / binen in
    let period := 2 * PI * sqrt (sma ^ 3 / l_m c) in
    let ecc := 1 - angmomsqd / (l_m c * sma * mu * mu) in
    let ecc := sqrt (Rmax 0 ecc) in
    let q := if rltb (l_m l2) (l_m l1) then l_m l2 / l_m l1 else l_m l1 / l_m l2 in
    let ty := if Nat.ltb c1 Nstar && Nat.ltb c2 Nstar then Binary else if Nat.ltb c1 Nstar || Nat.ltb c2 Nstar then Triple else Quadruple in
    Some (mkorb c1 c2 (l_m c) (l_x c Qr) (l_x c Qv) angmom binen sma period ecc q ty).

(** Lines 432-434 and 760-762: orbit[Norbit] is written to even if the pair turns out to be unbound. *)
Definition add_orbit (Norbmax c1 c2 Nstar : nat) (x l1 l2 : cell) (os : list orb) : res (list orb) :=
  if Nat.eqb (l_comp x) 2 then
    if Nat.ltb (length os) Norbmax then
      match ComputeNewBinaryOrbit c1 c2 Nstar x l1 l2 with Some o => Ok (os ++ [o]) | None => Ok os end
    else UB
  else Ok os.
(** Lines 297-314 and 709-721: the cell of a star; [comp] is Ncomp, set when the tree was built. *)
Definition star_cell (comp : nat) (s : starp) : cell :=
  mkcell (sp_m s) (sp_h s) (1 / 2 * sp_m s * sp_gpot s) 0 big_number comp (sp_x s) [].
(** Lines 318-338 and 727-740: sums and means of two cells. *)
Definition merge (l1 l2 : cell) : cell :=
  let m := l_m l1 + l_m l2 in
  mkcell m (Rmax (l_h l1) (l_h l2)) (l_gpe l1 + l_gpe l2) 0 0 (l_comp l1 + l_comp l2)
    (fun q k => (l_m l1 * l_x l1 q k + l_m l2 * l_x l2 q k) / m) [].
Definition set_list (c : cell) (l : list ent) : cell := mkcell (l_m c) (l_h c) (l_gpe c) (l_gpei c) (l_tcross c) (l_comp c) (l_x c) l.

(** State of the loop: cells, systems, main list, orbits. *)
Record bst := mkbst { b_cell : nat -> cell; b_sys : list sysp; b_nbody : list ent; b_orb : list orb }.
Definition putc (f : nat -> cell) (i : nat) (x : cell) : nat -> cell := fun j => if Nat.eqb j i then x else f j.

Variable stars : nat -> starp.
(** si->m, si->r, si->v of an entry of a list. *)
Definition ent_m (ys : list sysp) (e : ent) : R :=
  match e with EStar i => sp_m (stars i) | ESys s => match nth_error ys s with Some y => y_m y | None => 0 end end.
Definition ent_x (ys : list sysp) (e : ent) (q : quantity) : vec :=
  match e with EStar i => sp_x (stars i) q | ESys s => match nth_error ys s with Some y => y_x y q | None => fun _ => 0 end end.
(** Lines 365-370. *)
Definition ketot (ys : list sysp) (v : vec) (l : list ent) : R :=
  fold_left (fun ke e => let dv := vsub (ent_x ys e Qv) v in ke + 1 / 2 * ent_m ys e * dot ndim dv dv) l 0.
(** Lines 375-384: every pair once. *)
Fixpoint pair_gpe (ys : list sysp) (l : list ent) (g : R) : R :=
  match l with
  | [] => g
  | e :: tl => pair_gpe ys tl (fold_left (fun g f => let dr := vsub (ent_x ys f Qr) (ent_x ys e Qr) in
                 g + ent_m ys e * ent_m ys f * (1 / (sqrt (dot ndim dr dr) + small_number_dp))) tl g)
  end.

(** Lines 294-486, one node.  [Nstar] stars, capacities [Nsysmax] of system and [Nnbmax] of nbodydata, [Norbmax] of orbit;
    [gpesoft] is the parameter of this name. *)
Variables (T : tree) (Nstar Nsysmax Nnbmax Norbmax : nat) (gpesoft : R).
Definition flush (l : list ent) (nb : list ent) : res (list ent) :=
  if Nat.leb (length nb + length l) Nnbmax then Ok (nb ++ l) else UB.
Definition build_node (c : nat) (b : bst) : res bst :=
  if Nat.ltb c Nstar then
    Ok (mkbst (putc (b_cell b) c (set_list (star_cell (n_comp (T c)) (stars c)) [EStar c])) (b_sys b) (b_nbody b) (b_orb b))
  else
    match n_c1 (T c), n_c2 (T c) with
    | Some c1, Some c2 =>
      let l1 := b_cell b c1 in let l2 := b_cell b c2 in
      let x := merge l1 l2 in
      if Nat.leb (l_comp x) Ncompmax then
        let l := l_list l1 ++ l_list l2 in
        if Nat.ltb Ncompmax (length l) then UB
        else
          let vmean := sqrt (2 * ketot (b_sys b) (l_x x Qv) l / l_m x) in
          let gi := pair_gpe (b_sys b) l 0 in
          let tc := sqrt (l_m x * l_m x / gi) / vmean in
          let x := mkcell (l_m x) (l_h x) (l_gpe x) gi tc (l_comp x) (l_x x) l in
          if rltb (Rabs (l_gpe x - gi)) (gpesoft * l_gpe x) then
            if Nat.ltb (length (b_sys b)) Nsysmax then
              let y := mksys c tc (l_m x) (l_h x) gi (l_x x) (l_comp x) l in
              let! orbs := add_orbit Norbmax c1 c2 Nstar x l1 l2 (b_orb b) in
              Ok (mkbst (putc (b_cell b) c (mkcell (l_m x) (l_h x) (l_gpe x - gi) 0 tc 1 (l_x x) [ESys (length (b_sys b))]))
                         (b_sys b ++ [y]) (b_nbody b) orbs)
            else UB
          else Ok (mkbst (putc (b_cell b) c x) (b_sys b) (b_nbody b) (b_orb b))
      else
        let! nb := flush (l_list l1) (b_nbody b) in
        let! nb := flush (l_list l2) nb in
        let f := putc (b_cell b) c (set_list x []) in
        let f := putc f c1 (set_list (f c1) []) in
        let f := putc f c2 (set_list (f c2) []) in
        Ok (mkbst f (b_sys b) nb (b_orb b))
    | _, _ => UB
    end.
Fixpoint build_nodes (n : nat) (b : bst) : res bst :=
  match n with O => Ok b | S n => let! b := build_nodes n b in build_node n b end.
(** Lines 256-513: counters are zeroed, all nodes treated in order, the rest of the list of the last node is added. *)
Definition BuildSubSystems (Nnode : nat) (cells : nat -> cell) : res bst :=
  let! b := build_nodes Nnode (mkbst cells [] [] []) in
  match Nnode with
  | O => UB
  | S c => let! nb := flush (l_list (b_cell b c)) (b_nbody b) in Ok (mkbst (b_cell b) (b_sys b) nb (b_orb b))
  end.

(** * Binary statistics *)
(** Lines 707-776, one node. *)
Definition binary_node (c : nat) (b : (nat -> cell) * list orb) : res ((nat -> cell) * list orb) :=
  let '(f, os) := b in
  if Nat.ltb c Nstar then Ok (putc f c (star_cell (n_comp (T c)) (stars c)), os)
  else
    match n_c1 (T c), n_c2 (T c) with
    | Some c1, Some c2 =>
      let l1 := f c1 in let l2 := f c2 in
      let x := merge l1 l2 in
      if Nat.leb (l_comp x) Ncompmax then
        let dr := vsub (l_x l1 Qr) (l_x l2 Qr) in
        let gi := 0 + l_m l1 * l_m l2 * (1 / (sqrt (dot ndim dr dr) + small_number_dp)) in
        if rltb (Rabs (l_gpe x - gi)) (gpesoft * l_gpe x) then
          let! os := add_orbit Norbmax c1 c2 Nstar x l1 l2 os in
          Ok (putc f c (mkcell (l_m x) (l_h x) (l_gpe x - gi) 0 0 1 (l_x x) []), os)
        else Ok (putc f c (mkcell (l_m x) (l_h x) (l_gpe x) gi 0 (l_comp x) (l_x x) []), os)
      else Ok (putc f c x, os)
    | _, _ => UB
    end.
Fixpoint binary_nodes (n : nat) (b : (nat -> cell) * list orb) : res ((nat -> cell) * list orb) :=
  match n with O => Ok b | S n => let! b := binary_nodes n b in binary_node n b end.
(** Lines 685-785. *)
Definition FindBinarySystems (Nnode : nat) (cells : nat -> cell) : res ((nat -> cell) * list orb) := binary_nodes Nnode (cells, []).
End NNTree.
