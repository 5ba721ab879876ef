(** Model of src/models/price.rs. *)
From Verif Require Import Base Money.
Open Scope Qc_scope.

(** price.rs:12-30.  The price of a [Price] is always Money::Money in this program (a Money::Zero
    would make [conversion] panic); commodities are identified by name, as their [Eq] does. *)
Record price := { pr_date : Z; pr_com : str; pr_amount : Qc; pr_cur : str }.

(** price.rs:149-153 *)
Definition gnode : Type := str * Z.
(** price.rs:149-153, derived [Eq]. *)
Definition gnode_eqb (a b : gnode) : bool := str_eqb (fst a) (fst b) && (snd a =? snd b)%Z.
(** price.rs:155-160 *)
Record edge := { e_price : option price; e_from : gnode; e_to : gnode }.
(** price.rs:162-170: days between the ends. *)
Definition e_length (e : edge) : Z := Z.abs (snd (e_from e) - snd (e_to e)).

(** price.rs:191-196 *)
Definition pair_key (p : price) : str * str :=
  if str_ltb (pr_cur p) (pr_com p) then (pr_cur p, pr_com p) else (pr_com p, pr_cur p).
(** [==] on the keys of price.rs:186. *)
Definition key_eqb (a b : str * str) : bool := str_eqb (fst a) (fst b) && str_eqb (snd a) (snd b).

(** price.rs:185-207: for each unordered pair of commodities the first of the newest prices that
    are not after the date. *)
Definition nodup_step (date : Z) (m : list ((str * str) * price)) (p : price) :=
  if (date <? pr_date p)%Z then m
  else match hget key_eqb (pair_key p) m with
       | None => hset key_eqb (pair_key p) p m
       | Some x => if (pr_date x <? pr_date p)%Z then hset key_eqb (pair_key p) p m else m
       end.
(** price.rs:186-207 *)
Definition prices_nodup (date : Z) (ps : list price) : list ((str * str) * price) :=
  fold_left (nodup_step date) ps [].

(** price.rs:183-229: the (commodity, date) pairs; [pl] is the deduplicated list in iteration order. *)
Definition graph_nodes (src : gnode) (pl : list price) : list gnode :=
  fold_left (fun s p =>
               let k := pair_key p in
               sadd gnode_eqb (snd k, pr_date p) (sadd gnode_eqb (fst k, pr_date p) s))
            pl [src].

(** price.rs:230-245 *)
Definition price_edges (pl : list price) : list edge :=
  map (fun p => {| e_price := Some p; e_from := (pr_com p, pr_date p); e_to := (pr_cur p, pr_date p) |}) pl.
(** price.rs:249-261: no-price edges between nodes of the same commodity, i <= j. *)
Fixpoint same_edges (ns : list gnode) : list edge :=
  match ns with
  | [] => []
  | n :: r =>
      map (fun m => {| e_price := None; e_from := n; e_to := m |})
          (filter (fun m => str_eqb (fst n) (fst m)) (n :: r)) ++ same_edges r
  end.

(** price.rs:270-287 *)
Fixpoint neighbours (es : list edge) (v : gnode) : list (gnode * edge) :=
  match es with
  | [] => []
  | e :: r =>
      if gnode_eqb (e_from e) v then (e_to e, e) :: neighbours r v
      else if gnode_eqb (e_to e) v then (e_from e, e) :: neighbours r v
      else neighbours r v
  end.

(** price.rs:290-301 *)
Definition dist_cmp (a b : option Z) : comparison :=
  match a, b with
  | None, None => Eq
  | None, Some _ => Gt
  | Some _, None => Lt
  | Some x, Some y => (x ?= y)%Z
  end.

(** The maps [distances] and [paths].  Every node has an entry in [distances], so the unwraps of
    price.rs:78-98 never fail; a missing entry reads as None here. *)
Record dstate := { ds_dist : list (gnode * option Z); ds_paths : list (gnode * list edge) }.
(** price.rs:78-98 *)
Definition dist (d : list (gnode * option Z)) (n : gnode) : option Z :=
  match hget gnode_eqb n d with Some x => x | None => None end.

(** price.rs:94-110: relaxing one neighbour. *)
Definition relax (dv : Z) (path : list edge) (s : dstate) (ue : gnode * edge) : dstate :=
  let (u, e) := ue in
  let alt := (dv + e_length e)%Z in
  if match dist (ds_dist s) u with None => true | Some d => (alt <? d)%Z end then
    {| ds_dist := hset gnode_eqb u (Some alt) (ds_dist s);
       ds_paths := hset gnode_eqb u (path ++ [e]) (ds_paths s) |}
  else s.

(** price.rs:77-81: sort from the largest distance to the smallest (stable), take the last. *)
Definition sort_queue (d : list (gnode * option Z)) (q : list gnode) : list gnode :=
  stable_sort (fun a b => match dist_cmp (dist d b) (dist d a) with Gt => false | _ => true end) q.

(** price.rs:76-111; the fuel is the length of the queue, which loses an element each time. *)
Fixpoint dijkstra (fuel : nat) (es : list edge) (q : list gnode) (s : dstate) : dstate :=
  match fuel with
  | O => s
  | S f =>
      match rev (sort_queue (ds_dist s) q) with
      | [] => s
      | v :: q' =>
          match dist (ds_dist s) v with
          | None => s
          | Some dv =>
              let path := match hget gnode_eqb v (ds_paths s) with Some p => p | None => [] end in
              (* the distance of v is read again for every neighbour (line 95); it can not have
                 changed, as alt < d fails for v itself *)
              dijkstra f es (rev q') (fold_left (relax dv path) (neighbours es v) s)
          end
      end
  end.

(** price.rs:63-75 *)
Definition init_dist (cur : str) (date : Z) (ns : list gnode) : list (gnode * option Z) :=
  map (fun n => (n, if str_eqb (fst n) cur then Some (date - snd n)%Z else None)) ns.

(** price.rs:130-143: the product along a path, walked from its end. *)
Definition walk_step (st : str * Qc) (e : edge) : res (str * Qc) :=
  let (cur, m) := st in
  match e_price e with
  | None => Ok (cur, m)
  | Some p =>
      if str_eqb cur (fst (e_from e)) then Ok (fst (e_to e), m * pr_amount p)
      else if qc_eqb (pr_amount p) 0 then Panic PDivZero
      else Ok (fst (e_from e), m / pr_amount p)
  end.
(** price.rs:130-143 *)
Definition walk (cur : str) (path : list edge) : res (str * Qc) := foldM walk_step (cur, 1) (rev path).

(** price.rs:113-146; [paths] in iteration order. *)
Definition mult_step (st : list (str * Qc) * list (str * Z)) (kv : gnode * list edge)
  : res (list (str * Qc) * list (str * Z)) :=
  let (mults, inserted) := st in
  let '((c, d), path) := kv in
  match hget str_eqb c inserted with
  | Some x =>
      if (d <? x)%Z then Ok (mults, inserted)
      else '(_, m) <- walk c path ;; Ok (hset str_eqb c m mults, inserted)
  | None => '(_, m) <- walk c path ;; Ok (hset str_eqb c m mults, hset str_eqb c d inserted)
  end.
(** price.rs:113-146 *)
Definition multipliers (paths : list (gnode * list edge)) : res (list (str * Qc)) :=
  '(m, _) <- foldM mult_step ([], []) paths ;; Ok m.

(** price.rs:48-147, with the three iteration orders. *)
Definition conv_nodes (w : world) (site : nat) (cur : str) (date : Z) (ps : list price) :=
  let pl := w_ord w site _ (map snd (prices_nodup date ps)) in
  let ns := w_ord w (S site) _ (graph_nodes (cur, date) pl) in
  (ns, price_edges pl ++ same_edges ns).
(** price.rs:48-111 *)
Definition conv_paths (w : world) (site : nat) (cur : str) (date : Z) (ps : list price) :=
  let (ns, es) := conv_nodes w site cur date ps in
  ds_paths (dijkstra (length ns) es ns {| ds_dist := init_dist cur date ns; ds_paths := [] |}).
(** price.rs:48-147 *)
Definition conversion (w : world) (site : nat) (cur : str) (date : Z) (ps : list price)
  : res (list (str * Qc)) :=
  multipliers (w_ord w (S (S site)) _ (conv_paths w site cur date ps)).
