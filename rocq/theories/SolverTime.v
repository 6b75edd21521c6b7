(** * The whole program with its loop turns counted

    Copies of the remaining functions: ProblemSolver's constructor, merge_limits,
    calc and solve, and Flow's constructor.  Counted are the iterations of
    ProblemSolver.cpp:24-26, 28-38, 66-77, 82-85 and 93-97, of Flow.cpp:10-13,
    18-22 and 26-27, the elements written when a vector is made or copied
    (Flow.cpp:6-8, 16-17, 24-25 and the argument [limits]), and the search of
    ProblemDefine.cpp:6-16.  [std::map] is a sorted list in the model; a lookup
    or an insertion is counted as if it passed every element. *)
From Verif Require Import Base BaseLemmas Data UniqueQueue LCT ProblemDefine Flow ProblemSolver LCTTime FlowTime.
Local Open Scope Z_scope.

Section Time.
Context {D : Type} {ops : DataOps D}.

(** ProblemDefine.cpp:18-26 *)
Definition pre_processing_t (fuel : nat) (o : OmegaLimit D) : counted (OmegaLimit D) :=
  min_point <~ partition_point_t fuel (o_l o) (o_u o) (decreasing_at (o_fn o)) ;;
  free (Ok (mkOm (o_l o) (o_u o) (fun x => o_fn o (Z.max min_point x)) (o_i o) (o_j o))).

(** ProblemSolver.cpp:24-26 *)
Fixpoint check_mus_t (fuel : nat) (n : Z) (mus : list (MuLimit D)) (i : nat) : counted bool :=
  if n <? Z.of_nat i then free (Ok true)
  else
    match fuel with
    | O => Err OutOfFuel
    | S fuel => turn (
        m <~ free (vget mus i) ;;
        if m_l m <=? m_u m then check_mus_t fuel n mus (S i) else free (Ok false))
    end.

(** ProblemSolver.cpp:28-38, one iteration *)
Definition check_omega_t (fuel : nat) (n : Z) (mus : list (MuLimit D)) (it : OmegaLimit D)
  : counted (option (OmegaLimit D)) :=
  if negb ((1 <=? Z.of_nat (o_i it)) && (Z.of_nat (o_i it) <=? n)) then free (Ok None)
  else if negb ((1 <=? Z.of_nat (o_j it)) && (Z.of_nat (o_j it) <=? n)) then free (Ok None)
  else if Nat.eqb (o_i it) (o_j it) then free (Ok None)
  else if negb (o_l it <=? o_u it) then free (Ok None)
  else
    it <~ pre_processing_t fuel it ;;
    a <~ free (vget mus (o_i it)) ;;
    b <~ free (vget mus (o_j it)) ;;
    l <~ free (ck (m_l a - m_u b)) ;;
    let it := mkOm l (o_u it) (o_fn it) (o_i it) (o_j it) in
    if l <=? o_u it then free (Ok (Some it)) else free (Ok None).

(** ProblemSolver.cpp:28-38 *)
Fixpoint check_omegas_t (fuel : nat) (n : Z) (mus : list (MuLimit D)) (oms : list (OmegaLimit D))
  : counted (option (list (OmegaLimit D))) :=
  match oms with
  | [] => free (Ok (Some []))
  | it :: oms => turn (
      r <~ check_omega_t fuel n mus it ;;
      match r with
      | None => free (Ok None)
      | Some it =>
          r <~ check_omegas_t fuel n mus oms ;;
          match r with None => free (Ok None) | Some l => free (Ok (Some (it :: l))) end
      end)
  end.

(** ProblemSolver.cpp:6-40 *)
Definition solver_new_t (fuel : nat) (n : Z) (mus : list (MuLimit D)) (oms : list (OmegaLimit D))
  : counted (solver D) :=
  if negb (Z.of_nat (length mus) =? (n + 1) mod (SIZE_MAX + 1)) then free (Ok invalid)
  else
    b <~ check_mus_t fuel n mus 1 ;;
    if negb (b : bool) then free (Ok invalid)
    else
      r <~ check_omegas_t fuel n mus oms ;;
      match r with
      | None => free (Ok invalid)
      | Some oms => free (Ok (mkSolver n mus oms))
      end.

(** ProblemSolver.cpp:66-77 *)
Fixpoint merge_loop_t (oms : list (OmegaLimit D)) (mp : lmap) : counted (option lmap) :=
  match oms with
  | [] => free (Ok (Some mp))
  | it :: oms => turn (
      it <~ free (if (o_i it <? o_j it)%nat then reverse it else Ok it) ;;
      let k := (o_i it, o_j it) in
      _ <~ turns (2 * length mp) ;;
      match map_find mp k with
      | Some o =>
          r <~ free (merge o it) ;;
          let ' (o', err) := r in
          if (err : bool) then free (Ok None)
          else merge_loop_t oms (map_set mp k o')
      | None => merge_loop_t oms (map_set mp k it)
      end)
  end.

(** ProblemSolver.cpp:61-87 *)
Definition merge_limits_t (s : solver D) : counted (option (list (OmegaLimit D))) :=
  r <~ merge_loop_t (s_oms s) [] ;;
  match r with
  | None => free (Ok None)
  | Some mp =>
      _ <~ turns (length mp) ;;
      ms <~ for_each_t (seq 1 (Z.to_nat (s_n s))) [] (fun ret i =>
              free (m <- vget (s_mus s) i ;;
                    Ok (ret ++ [mkOm (m_l m) (m_u m) (m_fn m) i 0%nat]))) ;;
      free (Ok (Some (map snd mp ++ ms)))
  end.

(** ProblemSolver.cpp:89-99 *)
Definition calc_t (fuel : nat) (limits : list (OmegaLimit D)) : counted (D * D * Z) :=
  for_each_t limits (dzero, done, 0) (fun '(vmax, M, U) it =>
    a <~ free (o_fn it (o_l it)) ;;
    b <~ free (o_fn it (o_u it)) ;;
    let vmax := dadd vmax (dmax a b) in
    mi <~ limit_min_t fuel it ;;
    let M := dadd M (dsub (dmax a b) mi) in
    d <~ free (ck (o_u it - o_l it)) ;;
    free (Ok (vmax, M, Z.max U d))).

(** Flow.cpp:10-13 *)
Fixpoint eps_loop_t (fuel : nat) (n : nat) (U eps : Z) : counted Z :=
  match fuel with
  | O => Err OutOfFuel
  | S fuel =>
      a <~ free (ck (Z.of_nat (n + 1))) ;;
      b <~ free (ck (2 * a)) ;;
      c <~ free (ck (b * U)) ;;
      if eps <? c then turn (
        e <~ free (ck (eps * 2)) ;;
        _ <~ free (assert_ (negb (e =? 0))) ;;
        eps_loop_t fuel n U e)
      else free (Ok eps)
  end.

(** Flow.cpp:18-22 *)
Fixpoint double_edges_t (k : nat) (edges : list (OmegaLimit D)) : counted (list (OmegaLimit D)) :=
  match k with
  | O => free (Ok edges)
  | S k => turn (
      let i := (2 * k)%nat in
      e <~ free (vget edges k) ;;
      edges <~ free (vset edges i e) ;;
      edges <~ free (vset edges (i + 1) e) ;;
      e' <~ free (reverse e) ;;
      edges <~ free (vset edges (i + 1) e') ;;
      double_edges_t k edges)
  end.

(** Flow.cpp:26-27 *)
Definition build_G_t (edges : list (OmegaLimit D)) (G : list (list nat)) : counted (list (list nat)) :=
  for_each_t (seq 0 (length edges)) G (fun G e_id => free (
    e <- vget edges e_id ;;
    g <- vget G (o_i e) ;;
    vset G (o_i e) (g ++ [e_id]))).

(** Flow.cpp:6-28; seven vectors of n + 1 elements, [limits] copied and [edges]
    and [flows] of twice its size *)
Definition flow_new_t (fuel : nat) (n : nat) (M : D) (U : Z) (limits : list (OmegaLimit D)) : counted (flow D) :=
  _ <~ turns (7 * (n + 1) + 5 * length limits) ;;
  eps <~ eps_loop_t fuel n U 1 ;;
  _ <~ free (assert_ (U <=? Z.quot (Z.quot eps 2) (Z.of_nat (n + 1)))) ;;
  edges <~ double_edges_t (length limits) (limits ++ repeat OmegaLimit0 (length limits)) ;;
  G <~ build_G_t edges (repeat [] (n + 1)) ;;
  free (Ok (mkFlow n M eps (repeat node0 (n + 1)) (repeat dzero (n + 1)) (repeat O (n + 1))
             (uq_new (n + 1)) (repeat None (n + 1)) edges (repeat dzero (length edges))
             G (repeat 0 (n + 1)))).

(** ProblemSolver.cpp:42-59 *)
Definition solve_t (fuel : nat) (s : solver D) : counted (option D) :=
  if s_n s =? SIZE_MAX then free (Ok None)
  else
    r <~ merge_limits_t s ;;
    match r with
    | None => free (Ok None)
    | Some limits =>
        c <~ calc_t fuel limits ;;
        let ' (vmax, M, U) := c in
        fl <~ flow_new_t fuel (Z.to_nat (s_n s)) M U limits ;;
        r <~ min_cost_t fuel fl ;;
        let ' (_, mc) := r in
        if dlt vmax mc then free (Ok None) else free (Ok (Some mc))
    end.

(** test/test.cpp:51-55 *)
Definition run_solver_t (fuel : nat) (n : Z) (mus : list (MuLimit D)) (oms : list (OmegaLimit D))
  : counted (option D) :=
  s <~ solver_new_t fuel n mus oms ;;
  solve_t fuel s.

(** ** Counting changes nothing *)
Ltac er := repeat (rewrite erase_cbind, erase_free; apply bind_ext; intro; cbv zeta).

Lemma pre_processing_erase fuel o : erase (pre_processing_t fuel o) = pre_processing fuel o.
Proof. unfold pre_processing_t, pre_processing. rewrite erase_cbind, partition_point_erase. apply bind_ext. intro. reflexivity. Qed.

Lemma check_mus_erase n mus : forall fuel i, erase (check_mus_t fuel n mus i) = check_mus fuel n mus i.
Proof.
  induction fuel as [|fuel IH]; intro i; cbn [check_mus_t check_mus]; (destruct (n <? Z.of_nat i); [reflexivity|]); [reflexivity|].
  rewrite erase_turn. er. destruct (m_l a <=? m_u a); [apply IH|reflexivity].
Qed.

Lemma check_omega_erase fuel n mus it : erase (check_omega_t fuel n mus it) = check_omega fuel n mus it.
Proof.
  unfold check_omega_t, check_omega. do 2 (destruct (negb (_ && _)); [reflexivity|]). destruct (Nat.eqb _ _); [reflexivity|].
  destruct (negb (o_l it <=? o_u it)); [reflexivity|]. rewrite erase_cbind, pre_processing_erase. apply bind_ext. intro o. er.
  cbn [o_u]. destruct (a1 <=? o_u o); reflexivity.
Qed.

Lemma check_omegas_erase fuel n mus : forall oms, erase (check_omegas_t fuel n mus oms) = check_omegas fuel n mus oms.
Proof.
  induction oms as [|it oms IH]; [reflexivity|]. cbn [check_omegas_t check_omegas]. rewrite erase_turn, erase_cbind, check_omega_erase.
  apply bind_ext. intros [o|]; [|reflexivity]. rewrite erase_cbind, IH. apply bind_ext. intros [l|]; reflexivity.
Qed.

Lemma solver_new_erase fuel n mus oms : erase (solver_new_t fuel n mus oms) = solver_new fuel n mus oms.
Proof.
  unfold solver_new_t, solver_new. destruct (negb _); [reflexivity|]. rewrite erase_cbind, check_mus_erase. apply bind_ext. intro b.
  destruct (negb b); [reflexivity|]. rewrite erase_cbind, check_omegas_erase. apply bind_ext. intros [l|]; reflexivity.
Qed.

Lemma merge_loop_erase : forall oms mp, erase (merge_loop_t oms mp) = merge_loop oms mp.
Proof.
  induction oms as [|it oms IH]; intro mp; [reflexivity|]. cbn [merge_loop_t merge_loop]. rewrite erase_turn, erase_cbind, erase_free.
  apply bind_ext. intro o. cbv zeta. rewrite erase_cbind. cbn [turns erase bind]. destruct (map_find mp _); [|apply IH].
  rewrite erase_cbind, erase_free. apply bind_ext. intros [o' [|]]; [reflexivity|apply IH].
Qed.

Lemma merge_limits_erase s : erase (merge_limits_t s) = merge_limits s.
Proof.
  unfold merge_limits_t, merge_limits. rewrite erase_cbind, merge_loop_erase. apply bind_ext. intros [mp|]; [|reflexivity].
  rewrite erase_cbind. cbn [turns erase bind]. rewrite erase_cbind. apply bind_ext2; [|intro; reflexivity].
  apply for_each_erase. intros. apply erase_free.
Qed.

Lemma calc_erase fuel limits : erase (calc_t fuel limits) = calc fuel limits.
Proof.
  unfold calc_t, calc. apply for_each_erase. intros [[vmax M] U] it. er. rewrite erase_cbind, limit_min_erase. apply bind_ext. intro. er. reflexivity.
Qed.

Lemma eps_loop_erase n U : forall fuel eps, erase (eps_loop_t fuel n U eps) = eps_loop fuel n U eps.
Proof.
  induction fuel as [|fuel IH]; intro eps; [reflexivity|]. cbn [eps_loop_t eps_loop]. er. destruct (eps <? a1); [|reflexivity].
  rewrite erase_turn. er. apply IH.
Qed.

Lemma double_edges_erase : forall k edges, erase (double_edges_t k edges) = double_edges k edges.
Proof.
  induction k as [|k IH]; intro edges; [reflexivity|]. cbn [double_edges_t double_edges]. rewrite erase_turn. cbv zeta. er. apply IH.
Qed.

Lemma build_G_erase edges G : erase (build_G_t edges G) = build_G edges G.
Proof. unfold build_G_t, build_G. apply for_each_erase. intros. apply erase_free. Qed.

Lemma flow_new_erase fuel n M U limits : erase (flow_new_t fuel n M U limits) = flow_new fuel n M U limits.
Proof.
  unfold flow_new_t, flow_new. rewrite erase_cbind. cbn [turns erase bind]. rewrite erase_cbind, eps_loop_erase. apply bind_ext. intro. er.
  rewrite erase_cbind, double_edges_erase. apply bind_ext. intro. rewrite erase_cbind, build_G_erase. apply bind_ext. intro. reflexivity.
Qed.

Lemma solve_erase fuel s : erase (solve_t fuel s) = solve fuel s.
Proof.
  unfold solve_t, solve. destruct (s_n s =? SIZE_MAX); [reflexivity|]. rewrite erase_cbind, merge_limits_erase. apply bind_ext. intros [l|]; [|reflexivity].
  rewrite erase_cbind, calc_erase. apply bind_ext. intros [[vmax M] U]. rewrite erase_cbind, flow_new_erase. apply bind_ext. intro fl.
  rewrite erase_cbind, min_cost_erase. apply bind_ext. intros [s' mc]. destruct (dlt vmax mc); reflexivity.
Qed.

Lemma run_solver_erase fuel n mus oms : erase (run_solver_t fuel n mus oms) = run_solver fuel n mus oms.
Proof. unfold run_solver_t, run_solver. rewrite erase_cbind, solver_new_erase. apply bind_ext. intro. apply solve_erase. Qed.
End Time.
