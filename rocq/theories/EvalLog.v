(** * The solver with the calls of the cost functions recorded

    Copies of the functions of ProblemDefine.v, Flow.v and ProblemSolver.v in which a
    cost function also returns the list of calls of the user's functions it makes
    ([OmegaLimit nz], [MuLimit nz]).  All other functions collect these lists. *)
From Verif Require Import Base Data UniqueQueue LCT ProblemDefine Flow ProblemSolver EvalSpec.
Local Open Scope Z_scope.

(** a number and the calls made to compute it *)
Definition nz : Type := Z * list user_call.
Definition noted (A : Type) : Type := res (A * list user_call).

Definition nbind {A B} (m : noted A) (k : A -> noted B) : noted B :=
  match m with
  | Ok (a, i) => match k a with Ok (b, j) => Ok (b, i ++ j) | Err e => Err e end
  | Err e => Err e
  end.

(** no call *)
Definition still {A} (m : res A) : noted A := match m with Ok a => Ok (a, []) | Err e => Err e end.

Notation "x <$ c1 ;; c2" := (nbind c1 (fun x => c2)) (at level 61, c1 at next level, right associativity).

Fixpoint for_each_n {A S : Type} (l : list A) (st : S) (body : S -> A -> noted S) : noted S :=
  match l with
  | [] => still (Ok st)
  | x :: l' => st' <$ body st x ;; for_each_n l' st' body
  end.

(** ** The user's functions *)
Definition note (who : user_fn) (f : Fn Z) : Fn nz := fun x => v <- f x ;; Ok (v, [(who, x)]).
Fixpoint note_mus (i : nat) (mus : list (MuLimit Z)) : list (MuLimit nz) :=
  match mus with
  | [] => []
  | m :: mus => mkMu (m_l m) (m_u m) (note (OfMu i) (m_fn m)) :: note_mus (S i) mus
  end.
Fixpoint note_oms (k : nat) (oms : list (OmegaLimit Z)) : list (OmegaLimit nz) :=
  match oms with
  | [] => []
  | o :: oms => mkOm (o_l o) (o_u o) (note (OfOmega k) (o_fn o)) (o_i o) (o_j o) :: note_oms (S k) oms
  end.

(** ** ProblemDefine.cpp *)

(** ProblemDefine.cpp:6-16 *)
Fixpoint partition_point_n (fuel : nat) (l r : Z) (pred : Z -> noted bool) : noted Z :=
  match fuel with
  | O => Err OutOfFuel
  | S fuel =>
      if l =? r then still (Ok l)
      else
        d <$ still (ck (r - l)) ;;
        mid <$ still (ck (l + Z.quot d 2)) ;;
        b <$ pred mid ;;
        if (b : bool)
        then l' <$ still (ck (mid + 1)) ;; partition_point_n fuel l' r pred
        else partition_point_n fuel l mid pred
  end.

Section Log.
Variable one : Z.
#[local] Hint Extern 0 (DataOps Z) => exact (exact_ops one) : typeclass_instances.

(** ProblemDefine.cpp:20-22 and 30-32 *)
Definition decreasing_at_n (fn : Fn nz) (x : Z) : noted bool :=
  a <$ fn x ;;
  x1 <$ still (ck (x + 1)) ;;
  b <$ fn x1 ;;
  still (Ok (dlt b a)).

(** ProblemDefine.cpp:18-26 *)
Definition pre_processing_n (fuel : nat) (o : OmegaLimit nz) : noted (OmegaLimit nz) :=
  min_point <$ partition_point_n fuel (o_l o) (o_u o) (decreasing_at_n (o_fn o)) ;;
  still (Ok (mkOm (o_l o) (o_u o) (fun x => o_fn o (Z.max min_point x)) (o_i o) (o_j o))).

(** ProblemDefine.cpp:28-34 *)
Definition limit_min_n (fuel : nat) (o : OmegaLimit nz) : noted Z :=
  min_point <$ partition_point_n fuel (o_l o) (o_u o) (decreasing_at_n (o_fn o)) ;;
  o_fn o min_point.

(** ProblemDefine.cpp:42-52 *)
Definition merge_n (o other : OmegaLimit nz) : res (OmegaLimit nz * bool) :=
  let l := Z.max (o_l o) (o_l other) in
  let u := Z.min (o_u o) (o_u other) in
  let fn := fun x => a <$ o_fn o x ;; b <$ o_fn other x ;; still (Ok (dadd a b)) in
  _ <- assert_ (Nat.eqb (o_i o) (o_i other)) ;;
  _ <- assert_ (Nat.eqb (o_j o) (o_j other)) ;;
  Ok (mkOm l u fn (o_i o) (o_j o), negb (l <=? u)).

(** ** Flow.cpp.  [es] is the member [edges]; the field [f_edges] is not used. *)
Section Edges.
Variable es : list (OmegaLimit nz).

(** Flow.cpp:128-140 *)
Definition q_n (s : flow Z) (e_id : nat) : noted Z :=
  e <$ still (vget es e_id) ;;
  pi <$ still (vget (f_scal s) (o_i e)) ;;
  pj <$ still (vget (f_scal s) (o_j e)) ;;
  d <$ still (ck (pi - pj)) ;;
  t <$ still (ck (ceil_div d (Z.of_nat (2 * (f_n s + 1))) - 1)) ;;
  t1 <$ still (ck (t + 1)) ;;
  x <$ still (vget (f_flows s) e_id) ;;
  if o_u e <? t1 then still (Ok (dsub (f_M s) x))
  else if t <? o_l e then still (Ok dzero)
  else
    a <$ o_fn e t1 ;;
    b <$ o_fn e t ;;
    still (Ok (dmax dzero (dsub (dsub a b) x))).

(** Flow.cpp:147-154 *)
Definition link_n (fuel : nat) (s : flow Z) (p : nat) : noted (flow Z) :=
  g <$ still (vget (f_G s) p) ;;
  c <$ still (vget (f_cur s) p) ;;
  e_id <$ still (vget g c) ;;
  e <$ still (vget es e_id) ;;
  fa <$ still (vset (f_fa s) p (Some (o_j e))) ;;
  let s := with_fa s fa in
  v <$ q_n s e_id ;;
  h <$ still (set_val fuel (f_nodes s) p v) ;;
  _ <$ still (vget (f_nodes s) (o_j e)) ;;
  h <$ still (set_fa fuel h p (Some (o_j e))) ;;
  still (Ok (with_nodes s h)).

(** Flow.cpp:156-162 *)
Definition flow_cut_n (fuel : nat) (s : flow Z) (p : nat) : noted (flow Z) :=
  fa <$ still (vset (f_fa s) p None) ;;
  let s := with_fa s fa in
  h <$ still (cut fuel (f_nodes s) p) ;;
  let s := with_nodes s h in
  g <$ still (vget (f_G s) p) ;;
  c <$ still (vget (f_cur s) p) ;;
  e_id <$ still (vget g c) ;;
  a <$ q_n s e_id ;;
  r <$ still (get_val fuel (f_nodes s) p) ;;
  let ' (h, v) := r in
  let s := with_nodes s h in
  still (add_flow_of_edge s e_id (dsub a v)).

(** Flow.cpp:97-103 *)
Definition send_push_n (fuel : nat) (s : flow Z) (p root_id : nat) (x : Z) : noted (flow Z) :=
  h <$ still (add_val_way_to_root fuel (f_nodes s) p (dopp x)) ;;
  let s := with_nodes s h in
  still (a <- vget (f_imb s) p ;;
        im <- vset (f_imb s) p (dsub a x) ;;
        b <- vget im root_id ;;
        im <- vset im root_id (dadd b x) ;;
        let s := with_imb s im in
        r <- vget im root_id ;;
        if dlt dzero r then
          u <- uq_push (f_uq s) root_id ;; Ok (with_uq s u)
        else Ok s).

(** Flow.cpp:104-113 *)
Fixpoint send_loop_n (fuel0 fuel : nat) (s : flow Z) (p root_id : nat) : noted (flow Z) :=
  if Nat.eqb p root_id then still (Ok s)
  else
    match fuel with
    | O => Err OutOfFuel
    | S fuel => (
        r <$ still (get_min_wtrbnr fuel0 (f_nodes s) p) ;;
        let ' (h, m) := r in
        let s := with_nodes s h in
        a <$ still (vget (f_imb s) p) ;;
        if dlt a (fst m) then send_push_n fuel0 s p root_id a
        else
          s <$ send_push_n fuel0 s p root_id (fst m) ;;
          match snd m with
          | None => Err NullDeref
          | Some r =>
              s <$ flow_cut_n fuel0 s r ;;
              send_loop_n fuel0 fuel s p r
          end)
    end.

(** Flow.cpp:94-114 *)
Definition send_n (fuel : nat) (s : flow Z) (p : nat) : noted (flow Z) :=
  r <$ still (find_root fuel (f_nodes s) p) ;;
  let ' (h, root_id) := r in
  send_loop_n fuel fuel (with_nodes s h) p root_id.

(** Flow.cpp:116-126 *)
Definition update_scaling_n (fuel : nat) (s : flow Z) (p : nat) : noted (flow Z) :=
  g <$ still (vget (f_G s) p) ;;
  s <$ for_each_n g s (fun s e_id =>
         e <$ still (vget es e_id) ;;
         let cut_p := o_j e in
         a <$ still (vget (f_fa s) cut_p) ;;
         if ptr_eqb a (Some p) then flow_cut_n fuel s cut_p else still (Ok s)) ;;
  still (a <- vget (f_scal s) p ;;
        a' <- ck (a + Z.quot (f_eps s) 2) ;;
        sc <- vset (f_scal s) p a' ;;
        cu <- vset (f_cur s) p O ;;
        Ok (with_cur (with_scal s sc) cu)).

(** Flow.cpp:86-91 *)
Fixpoint choice_loop_n (fuel0 fuel : nat) (s : flow Z) (p : nat) : noted (flow Z) :=
  match fuel with
  | O => Err OutOfFuel
  | S fuel => (
      c <$ still (vget (f_cur s) p) ;;
      g <$ still (vget (f_G s) p) ;;
      if (c <? length g)%nat then
        e_id <$ still (vget g c) ;;
        v <$ q_n s e_id ;;
        if dlt dzero v then
          s <$ link_n fuel0 s p ;; send_n fuel0 s p
        else
          cu <$ still (vset (f_cur s) p (c + 1)%nat) ;;
          choice_loop_n fuel0 fuel (with_cur s cu) p
      else update_scaling_n fuel0 s p)
  end.

(** Flow.cpp:74-78 *)
Fixpoint refine_loop_n (fuel0 fuel : nat) (s : flow Z) : noted (flow Z) :=
  if uq_empty (f_uq s) then still (Ok s)
  else
    match fuel with
    | O => Err OutOfFuel
    | S fuel => (
        p <$ still (uq_front (f_uq s)) ;;
        s <$ choice_loop_n fuel0 fuel0 s p ;;
        p <$ still (uq_front (f_uq s)) ;;
        a <$ still (vget (f_imb s) p) ;;
        s <$ still (if deq a dzero
                   then u <- uq_pop (f_uq s) ;; Ok (with_uq s u)
                   else Ok s) ;;
        refine_loop_n fuel0 fuel s)
    end.

(** Flow.cpp:80-82 *)
Definition cut_all_n (fuel : nat) (s : flow Z) : noted (flow Z) :=
  for_each_n (seq 0 (f_n s + 1)) s (fun s i =>
    a <$ still (vget (f_fa s) i) ;;
    match a with
    | None => still (Ok s)
    | Some _ => flow_cut_n fuel s i
    end).

(** Flow.cpp:73-83 *)
Definition refine_n (fuel : nat) (s : flow Z) : noted (flow Z) :=
  s <$ refine_loop_n fuel fuel s ;;
  cut_all_n fuel s.

(** Flow.cpp:58-71 *)
Definition push_all_n (s : flow Z) : noted (flow Z) :=
  s <$ for_each_n (seq 0 (length es)) s (fun s e_id =>
         e <$ still (vget es e_id) ;;
         v <$ q_n s e_id ;;
         if dlt dzero v then
           still (a <- vget (f_imb s) (o_i e) ;;
                 im <- vset (f_imb s) (o_i e) (dsub a v) ;;
                 b <- vget im (o_j e) ;;
                 im <- vset im (o_j e) (dadd b v) ;;
                 add_flow_of_edge (with_imb s im) e_id v)
         else still (Ok s)) ;;
  still (for_each (seq 0 (f_n s + 1)) s (fun s i =>
    a <- vget (f_imb s) i ;;
    if dlt dzero a then u <- uq_push (f_uq s) i ;; Ok (with_uq s u)
    else Ok s)).

(** Flow.cpp:31-35, one iteration *)
Definition phase_n (fuel : nat) (s : flow Z) : noted (flow Z) :=
  let s := initialization s in
  s <$ push_all_n s ;;
  refine_n fuel s.

(** Flow.cpp:31-35 *)
Fixpoint scaling_loop_n (fuel0 fuel : nat) (s : flow Z) : noted (flow Z) :=
  if f_eps s <? 2 then still (Ok s)
  else
    match fuel with
    | O => Err OutOfFuel
    | S fuel => (
        s <$ phase_n fuel0 s ;;
        scaling_loop_n fuel0 fuel (with_eps s (Z.quot (f_eps s) 2)))
    end.
End Edges.

(** Flow.cpp:40 *)
Definition tilt_n (e : OmegaLimit nz) (x : Z) : OmegaLimit nz :=
  mkOm (o_l e) (o_u e) (fun w => a <$ o_fn e w ;; still (Ok (dsub a (dmuli x w)))) (o_i e) (o_j e).

(** Flow.cpp:36-42 *)
Definition sum_answer_n (fuel : nat) (es : list (OmegaLimit nz)) (s : flow Z) : noted (list (OmegaLimit nz) * Z) :=
  for_each_n (seq 0 (length es)) (es, dzero) (fun '(es, answer) e_id =>
    e <$ still (vget es e_id) ;;
    x <$ still (vget (f_flows s) e_id) ;;
    let e' := tilt_n e x in
    es <$ still (vset es e_id e') ;;
    m <$ limit_min_n fuel e' ;;
    still (Ok (es, dadd answer m))).

(** Flow.cpp:30-46 *)
Definition min_cost_n (fuel : nat) (es : list (OmegaLimit nz)) (s : flow Z) : noted Z :=
  s <$ scaling_loop_n es fuel fuel s ;;
  r <$ sum_answer_n fuel es s ;;
  still (Ok (dhalf (snd r))).

(** Flow.cpp:6-28 *)
Definition flow_new_n (fuel : nat) (n : nat) (M U : Z) (limits : list (OmegaLimit nz)) : res (list (OmegaLimit nz) * flow Z) :=
  eps <- eps_loop fuel n U 1 ;;
  _ <- assert_ (U <=? Z.quot (Z.quot eps 2) (Z.of_nat (n + 1))) ;;
  es <- double_edges (length limits) (limits ++ repeat OmegaLimit0 (length limits)) ;;
  G <- build_G es (repeat [] (n + 1)) ;;
  Ok (es, mkFlow n M eps (repeat node0 (n + 1)) (repeat dzero (n + 1)) (repeat O (n + 1))
             (uq_new (n + 1)) (repeat None (n + 1)) [] (repeat dzero (length es))
             G (repeat 0 (n + 1))).

(** ** ProblemSolver.cpp *)

(** ProblemSolver.cpp:28-38, one iteration *)
Definition check_omega_n (fuel : nat) (n : Z) (mus : list (MuLimit nz)) (it : OmegaLimit nz)
  : noted (option (OmegaLimit nz)) :=
  if negb ((1 <=? Z.of_nat (o_i it)) && (Z.of_nat (o_i it) <=? n)) then still (Ok None)
  else if negb ((1 <=? Z.of_nat (o_j it)) && (Z.of_nat (o_j it) <=? n)) then still (Ok None)
  else if Nat.eqb (o_i it) (o_j it) then still (Ok None)
  else if negb (o_l it <=? o_u it) then still (Ok None)
  else
    it <$ pre_processing_n fuel it ;;
    still (a <- vget mus (o_i it) ;;
          b <- vget mus (o_j it) ;;
          l <- ck (m_l a - m_u b) ;;
          let it := mkOm l (o_u it) (o_fn it) (o_i it) (o_j it) in
          if l <=? o_u it then Ok (Some it) else Ok None).

(** ProblemSolver.cpp:28-38 *)
Fixpoint check_omegas_n (fuel : nat) (n : Z) (mus : list (MuLimit nz)) (oms : list (OmegaLimit nz))
  : noted (option (list (OmegaLimit nz))) :=
  match oms with
  | [] => still (Ok (Some []))
  | it :: oms =>
      r <$ check_omega_n fuel n mus it ;;
      match r with
      | None => still (Ok None)
      | Some it =>
          r <$ check_omegas_n fuel n mus oms ;;
          match r with None => still (Ok None) | Some l => still (Ok (Some (it :: l))) end
      end
  end.

(** ProblemSolver.cpp:6-40 *)
Definition solver_new_n (fuel : nat) (n : Z) (mus : list (MuLimit nz)) (oms : list (OmegaLimit nz))
  : noted (solver nz) :=
  if negb (Z.of_nat (length mus) =? (n + 1) mod (SIZE_MAX + 1)) then still (Ok invalid)
  else
    b <$ still (check_mus fuel n mus 1) ;;
    if negb (b : bool) then still (Ok invalid)
    else
      r <$ check_omegas_n fuel n mus oms ;;
      match r with
      | None => still (Ok invalid)
      | Some oms => still (Ok (mkSolver n mus oms))
      end.

(** ProblemSolver.cpp:66-77 *)
Fixpoint merge_loop_n (oms : list (OmegaLimit nz)) (mp : @lmap nz) : res (option (@lmap nz)) :=
  match oms with
  | [] => Ok (Some mp)
  | it :: oms =>
      it <- (if (o_i it <? o_j it)%nat then reverse it else Ok it) ;;
      let k := (o_i it, o_j it) in
      match map_find mp k with
      | Some o =>
          '(o', err) <- merge_n o it ;;
          if (err : bool) then Ok None
          else merge_loop_n oms (map_set mp k o')
      | None => merge_loop_n oms (map_set mp k it)
      end
  end.

(** ProblemSolver.cpp:61-87 *)
Definition merge_limits_n (s : solver nz) : res (option (list (OmegaLimit nz))) :=
  r <- merge_loop_n (s_oms s) [] ;;
  match r with
  | None => Ok None
  | Some mp =>
      ms <- for_each (seq 1 (Z.to_nat (s_n s))) [] (fun ret i =>
              m <- vget (s_mus s) i ;;
              Ok (ret ++ [mkOm (m_l m) (m_u m) (m_fn m) i 0])) ;;
      Ok (Some (map snd mp ++ ms))
  end.

(** ProblemSolver.cpp:89-99; here the four calls of 94 and 95 are all made *)
Definition calc_n (fuel : nat) (limits : list (OmegaLimit nz)) : noted (Z * Z * Z) :=
  for_each_n limits (dzero, done, 0) (fun '(vmax, M, U) it =>
    a <$ o_fn it (o_l it) ;;
    b <$ o_fn it (o_u it) ;;
    let vmax := dadd vmax (dmax a b) in
    a <$ o_fn it (o_l it) ;;
    b <$ o_fn it (o_u it) ;;
    mi <$ limit_min_n fuel it ;;
    let M := dadd M (dsub (dmax a b) mi) in
    d <$ still (ck (o_u it - o_l it)) ;;
    still (Ok (vmax, M, Z.max U d))).

(** ProblemSolver.cpp:42-59 *)
Definition solve_n (fuel : nat) (s : solver nz) : noted (option Z) :=
  if s_n s =? SIZE_MAX then still (Ok None)
  else
    r <$ still (merge_limits_n s) ;;
    match r with
    | None => still (Ok None)
    | Some limits =>
        c <$ calc_n fuel limits ;;
        let '(vmax, M, U) := c in
        f <$ still (flow_new_n fuel (Z.to_nat (s_n s)) M U limits) ;;
        mc <$ min_cost_n fuel (fst f) (snd f) ;;
        if dlt vmax mc then still (Ok None) else still (Ok (Some mc))
    end.

(** the constructor and [solve] *)
Definition run_solver_n (fuel : nat) (n : Z) (mus : list (MuLimit nz)) (oms : list (OmegaLimit nz)) : noted (option Z) :=
  s <$ solver_new_n fuel n mus oms ;;
  solve_n fuel s.
End Log.
