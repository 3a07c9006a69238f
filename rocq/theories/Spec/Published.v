(** Published values of ellipsoids (the list of PROJ) and prime meridians (EPSG, PROJ). *)
From Coq Require Import Reals List String.
Import ListNotations.
Local Open Scope R_scope.
Local Open Scope string_scope.

(** Semi-major axis in metres and either the inverse flattening or the semi-minor axis. *)
Inductive second_parameter : Type := InvF (i : R) | Minor (b : R).

Definition published_ellipsoids : list (string * R * second_parameter) :=
  [("Airy 1830", 6377563.396, InvF 299.3249646);
   ("Andrae 1876 (Den., Iclnd.)", 6377104.43, InvF 300);
   ("Andrae 1876 (Denmark, Iceland)", 6377019.2563, InvF 300);
   ("Appl. Physics. 1965", 6378137, InvF 298.25);
   ("Australian Natl & S. Amer. 1969", 6378160, InvF 298.25);
   ("Bessel 1841", 6377397.155, InvF 299.1528128);
   ("Bessel 1841 (Namibia)", 6377483.865, InvF 299.1528128);
   ("Clarke 1866", 6378206.4, Minor 6356583.8);
   ("Clarke 1880 mod.", 6378249.145, InvF 293.4663);
   ("Clarke 1880 (IGN).", 6378249.2, InvF 293.4660212936269);
   ("Comm. des Poids et Mesures 1799", 6375738.7, InvF 334.29);
   ("Delambre 1810 (Belgium)", 6376428, InvF 311.5);
   ("Engelis 1985", 6378136.05, InvF 298.2566);
   ("Everest 1830", 6377276.345, InvF 300.8017);
   ("Everest 1948", 6377304.063, InvF 300.8017);
   ("Everest 1956", 6377301.243, InvF 300.8017);
   ("Everest 1969", 6377295.664, InvF 300.8017);
   ("Everest (Sabah & Sarawak)", 6377298.556, InvF 300.8017);
   ("Fischer (Mercury Datum) 1960", 6378166, InvF 298.3);
   ("Fischer 1968", 6378150, InvF 298.3);
   ("GSK-2011", 6378136.5, InvF 298.2564151);
   ("GRS 1967(IUGG, 1967)", 6378160, InvF 298.2471674270);
   ("GRS 1980(IUGG, 1980)", 6378137, InvF 298.257222101);
   ("IAU 1976", 6378140, InvF 298.257);
   ("Helmert 1906", 6378200, InvF 298.3);
   ("Hough", 6378270, InvF 297);
   ("International 1924 (Hayford 1909, 1910)", 6378388, InvF 297);
   ("Kaula 1961", 6378163, InvF 298.24);
   ("Krassovsky, 1942", 6378245, InvF 298.3);
   ("Lerch 1979", 6378139, InvF 298.257);
   ("Maupertuis 1738", 6397300, InvF 191);
   ("MERIT 1983", 6378137, InvF 298.257);
   ("Modified Airy", 6377340.189, Minor 6356034.446);
   ("Modified Fischer 1960", 6378155, InvF 298.3);
   ("Naval Weapons Lab., 1965", 6378145, InvF 298.25);
   ("New International 1967", 6378157.5, Minor 6356772.2);
   ("Plessis 1817 (France)", 6376523, Minor 6355863);
   ("PZ-90", 6378136, InvF 298.25784);
   ("Southeast Asia", 6378155, Minor 6356773.3205);
   ("Soviet Geodetic System 85", 6378136, InvF 298.257);
   ("Walbeck", 6376896, Minor 6355834.8467);
   ("WGS 60", 6378165, InvF 298.3);
   ("WGS 66", 6378145, InvF 298.25);
   ("WGS 72", 6378135, InvF 298.26);
   ("WGS 84", 6378137, InvF 298.257223563)].

(** Degrees, minutes and seconds east (1) or west (-1) of Greenwich. *)
Definition dms (sign d m s : R) : R := sign * (d + m / 60 + s / 3600).
Definition published_meridians : list (string * R) :=
  [("Greenwich", 0);
   ("Lisbon", dms (-1) 9 7 54.862);
   ("Paris", dms 1 2 20 14.025);
   ("Bogota", dms (-1) 74 4 51.3);
   ("Madrid", dms (-1) 3 41 16.58);
   ("Rome", dms 1 12 27 8.4);
   ("Bern", dms 1 7 26 22.5);
   ("Jakarta", dms 1 106 48 27.79);
   ("Ferro", dms (-1) 17 40 0);
   ("Brussels", dms 1 4 22 4.71);
   ("Stockholm", dms 1 18 3 29.8);
   ("Athens", dms 1 23 42 58.815);
   ("Oslo", dms 1 10 43 22.5);
   ("Copenhagen", dms 1 12 34 40.35)].

(** Datums: name, semi-major axis and inverse flattening of the ellipsoid (EPSG 6326, 6121, 6269, 6313); all reckon
    longitudes from Greenwich. *)
Definition published_datums : list (string * R * R) :=
  [("WGS84", 6378137, 298.257223563); ("GGRS87", 6378137, 298.257222101);
   ("NAD83", 6378137, 298.257222101); ("RNB72", 6378388, 297)].
