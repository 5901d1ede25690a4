(** Model of the relocation of a catalog: DD::findClusters, libs/hdd/dd.cpp:378-391, and the two
    DD::relocateMultiEvents, 393-531.

    - The selection of neighbours is that of SelectCatalog_Model, the clusters are those of
      Cluster_Model, the relocation of a cluster is that of Reloc_Model and the cache of
      cross-correlations that of XCorrCache_Model.
    - What the selection for one event, the construction of the cache of a cluster
      (XcorrBuild_Model) and the world of the relocation (the travel times and the solver with
      the cache of the cluster) give are arguments.
    - Files for diagnostics, directories and logging are left out.
    - Beside the catalog and the cache, what each cluster gave is returned. *)
From stdpp Require Import gmap list strings.
From Verif Require Import Cluster_Model SelectCatalog_Model XCorrCache_Model.
From Verif Require Import Index_Model Csv_Model Catalog_Model Solver_Model Reloc_Model Neighbours_Model.
From Verif Require XcorrBuild_Model.

Section multi.
Context {V P C L : Type}.
Notation hypo := (V * V * V * Z)%type.
Notation delta := (V * V * V * V)%type.
Notation cluster := (gmap N (nb P)).
Notation xcache := (gmap N (gmap string (gmap string (gmap N (entry C L))))).
Variable ins : list (phase V) → phase V → list (phase V).
Variable move : hypo → delta → hypo.
(** Selection and clusters, see their models *)
Variable sel : gset N → N → nb P.
Variables ord ordc : nat → gset N → list N.
Variable pick : nat → gset N → N.
Variable minNum : nat.
(** The iteration order of a cluster (a hash map) and of forEach of a cache *)
Variable order : cluster → list N.
Variable each : xcache → list (quint C L).
Variable build : cluster → xcache → res xcache.      (* 484-485 *)
Variable wd : cluster → xcache → world V.            (* 489-490 *)

(** 378-391 *)
Definition find_clusters (fuel : nat) (bg : catalog V) : outcome (res (list cluster)) :=
  match select_catalog sel ord minNum fuel (e_id <$> sorted_events (c_ev bg)) with
  | Done G => match clusterize pick ordc fuel G with Done cls => Done (Ok cls) | Throw => Done Exc | NoFuel => NoFuel end
  | Throw => Done Bad
  | NoFuel => NoFuel
  end.

(** What a cluster gave: the cluster, its cache, its relocated events and the systems *)
Record given := Given { g_cl : cluster; g_xc : xcache; g_out : catalog V; g_log : list (catalog V * sol V) }.
Definition members (cl : cluster) : list (N * N) := omap (λ k, (λ n, (k, nb_ref n)) <$> cl !! k) (order cl).
(** 461-516, one cluster; the state is relocatedCatalog, xcorrData and what was given *)
Definition one_cluster (n : nat) (bg : catalog V) (st : catalog V * xcache * list given) (cl : cluster) : res (catalog V * xcache * list given) :=
  let '(acc, xd, gs) := st in
  rbind (build cl xd) (λ xc,
  rbind (relocate ins move (wd cl xc) (members cl) n bg) (λ '(out, log),
  match add_cat ins acc out true with
  | CRet acc' _ => Ok (acc', xc_merge xd (each xc), gs ++ [Given cl xc out log])
  | CExc _ => Exc
  | CUB => Bad
  end)).
(** 407-531 *)
Definition relocate_clusters (n : nat) (bg : catalog V) (xd : xcache) (cls : list cluster) : res (catalog V * xcache * list given) :=
  rloop (one_cluster n bg) cls (empty_cat, xd, []).
(** 393-405 *)
Definition relocate_catalog (fuel n : nat) (bg : catalog V) (xd : xcache) : outcome (res (catalog V * xcache * list given)) :=
  match find_clusters fuel bg with
  | Done r => Done (rbind r (relocate_clusters n bg xd))
  | Throw => Throw
  | NoFuel => NoFuel
  end.
End multi.
Arguments given : clear implicits.

(** The construction of the cache of a cluster as modelled in XcorrBuild_Model: 484-485 with
    1204-1210. The phases recorded for a neighbour are a map from phase types to stations. *)
Section instance.
Context {V : Type}.
Notation tcount := (@list_countable Ascii.ascii _ stdpp.strings.ascii_countable).
Notation cluster := (gmap N (nb (@gmap text _ tcount (@gset text _ tcount)))).
Notation xcache := (gmap N (gmap string (gmap string (gmap N (entry XcorrBuild_Model.dbl XcorrBuild_Model.dbl))))).
Variable order : cluster → list N.
Variable opt : XcorrBuild_Model.xcorr_opt.
Variable sta_dist : event V → station V → Reals.Rdefinitions.R.
Variable ev_dist : event V → event V → Reals.Rdefinitions.R.
Variable ids : neigh → list N.
Variable measure : event V → phase V → event V → phase V → res XcorrBuild_Model.outcome.
Definition as_list (cl : cluster) : list neigh := omap (λ k, (λ n, Neigh (nb_ref n) (nb_phs n)) <$> cl !! k) (order cl).
Definition xcorr_build (bg : catalog V) (cl : cluster) (pre : xcache) : res xcache :=
  rbind (XcorrBuild_Model.build_cache opt bg sta_dist ev_dist ids measure pre (as_list cl)) (λ st, Ok st.1).
End instance.
