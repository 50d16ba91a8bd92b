#!/usr/bin/env python3
"""Runs the model on the map that comes with the repository and compares the result with the files
the program made of it.

  smaller.shp                    the map of the repository's tests, one ring of 170 points
  smaller_graph/default          what the program made of it
  smaller_graph_range_1, _2      the two halves of a run in two parts

This is a test of the model, not a part of any proof: nothing here is built with the theories.  It needs a
finished build in ../rocq and takes about half an hour on four idle cores (files of the work directory which are up to
date are kept, so it can be interrupted):

  python3 check.py [/repo] [work directory]

With --survey it instead evaluates whether the map meets the hypotheses of C94 to C108 (surveyed and drawn), which takes
as long again.
"""
import os, re, struct, subprocess, sys
from concurrent.futures import ThreadPoolExecutor

ARGS = [a for a in sys.argv[1:] if a != '--survey']
REPO = ARGS[0] if ARGS else '/repo'
WORK = ARGS[1] if len(ARGS) > 1 else '/tmp/validation'
ROCQ = os.path.join(os.path.dirname(os.path.abspath(__file__)), '..', 'rocq', 'theories')
DATA = os.path.join(REPO, 'capi', 'test', 'test_files')

HEAD = """From Coq Require Import ZArith Bool List FMapPositive.
From Verif Require Import PyLayer Base F64 Coordinate Segment Polyline Polygon Periodicity Graph Visgraph Serializer Sweep SweepForced SweepCases BlockedLegs.
Import ListNotations.
Local Open Scope Z_scope.
"""

def shapes(name):
    d = open(os.path.join(DATA, name), 'rb').read()
    p = 100
    while p < len(d):
        _, words = struct.unpack('>ii', d[p:p + 8])
        r = d[p + 8:p + 8 + 2 * words]
        kind, = struct.unpack('<i', r[:4])
        nparts, npoints = struct.unpack('<ii', r[36:44])
        parts = struct.unpack('<%di' % nparts, r[44:44 + 4 * nparts])
        at = 44 + 4 * nparts
        yield kind, parts, [struct.unpack('<dd', r[at + 16 * i:at + 16 * i + 16]) for i in range(npoints)]
        p += 8 + 2 * words

def f64(x):
    n, d = x.as_integer_ratio()
    return '(fdiv (f_of_Z (%d)) (f_of_Z %d))' % (n, d)

def coq(name, text, keep=False):
    path = os.path.join(WORK, name + '.v')
    if keep and os.path.exists(path + 'o') and open(path).read() == HEAD + text:
        return ''
    open(path, 'w').write(HEAD + text)
    r = subprocess.run(['coqc', '-q', '-Q', ROCQ, 'Verif', '-R', WORK, 'Work', path], stdout=subprocess.PIPE, stderr=subprocess.STDOUT, text=True)
    if r.returncode:
        sys.exit(r.stdout[-2000:])
    return r.stdout

def printed(out, mark):
    """the value printed after [mark]"""
    return re.split(r'\n\s+: ', out.split(mark, 1)[1], 1)[0]

def integers(text):
    return [int(x) for x in re.findall(r'-?\d+', text)]

def graph_of(path):
    d = open(path, 'rb').read()
    n, = struct.unpack('<Q', d[:8])
    p, vs = 8, []
    for _ in range(n):
        k, = struct.unpack('<Q', d[p:p + 8])
        vs += [struct.unpack('<ii', d[p + 8 + 8 * i:p + 16 + 8 * i]) for i in range(k)]
        p += 8 + 8 * k
    edges = set()
    for i in range(len(vs)):
        edges |= {(i, l) for l in range(i) if d[p + l // 8] >> (l % 8) & 1}
        p += (i + 7) // 8
    count, = struct.unpack('<Q', d[p:p + 8])
    entries = struct.unpack('<%dQ' % count, d[p + 8:p + 8 + 8 * count])
    number = {j + (i * i + i) // 2: (i, j) for i in range(len(vs)) for j in range(i)}
    return d, vs, edges, count, {number[e] for e in entries if e}

def say(what, ok):
    print(('same      ' if ok else 'DIFFERENT ') + what, flush=True)
    return ok

def survey(quarters):
    """[survey_b] and [drawn_b] in parts, and that the polygons are as [make_polygon] leaves them"""
    need = 'From Verif Require Import SpecGeom SweepGen SweepOrder SweepMaps SweepGraph SweepLayers SweepFronts SweepWorld AngleFacts SeaLines OpenWater SurveyCheck SurveyFast CoastCheck Props_Sweep Props_Exact.\nFrom Work Require Import Map.\n'
    parts = [('no vertex twice, fair and made polygons', 'nodup_b (polygon_vertices ps) && forallb fair_b ps && forallb (fun P => match make_polygon (verts P) with '
              'Ok Q => (length (verts Q) =? length (verts P))%nat && forallb (fun ab => coord_eqb (fst ab) (snd ab)) (combine (verts Q) (verts P)) | _ => false end) ps'),
             ('drawn', 'drawn_b ps'), ('room between the polygons', 'roomy_b (map_copies ps)')]
    parts += [('ordered views from vertices %d to %d' % (lo + 1, hi), 'forallb (fun o => ordered_view_f true o (map_copies ps)) (firstn %d (skipn %d (polygon_vertices ps)))' % (hi - lo, lo)) for lo, hi in quarters]
    def part(k):
        return 'true' in printed(coq('Survey%d' % k, need + 'Eval vm_compute in (1111111111, %s).\n' % parts[k][1]), '1111111111')
    with ThreadPoolExecutor(4) as pool:
        found = list(pool.map(part, range(len(parts))))
    for (name, _), true in zip(parts, found):
        print(('true      ' if true else 'FALSE     ') + name, flush=True)
    return 0 if all(found) else 1

def main():
    os.makedirs(WORK, exist_ok=True)
    fine = True
    (kind, parts, points), = shapes('smaller.shp')
    coq('Map', 'Definition shapes := [mkSh %s [%s] [%s]].\n' % (
        'true' if kind == 5 else 'false', ';\n'.join('(%s, %s)' % (f64(x), f64(y)) for x, y in points), '; '.join('%d%%nat' % k for k in parts)) +
        'Definition ps := Eval vm_compute in match read_polygons_from_shapefile shapes with Ok l => l | _ => [] end.\n'
        'Definition copies := Eval vm_compute in copies_of ps.\n'
        'Definition around := Eval vm_compute in match make_polygons_periodic ps with Ok l => forallb (fun p => polygon_eqb (fst p) (snd p)) (combine l copies) && (length l =? length copies)%nat | _ => false end.\n'
        'Definition nobody := Eval vm_compute in mkC 0 0.\n', keep=True)
    out = coq('Read', 'From Work Require Import Map.\nEval vm_compute in (1111111111, map verts ps, 2222222222).\nEval vm_compute in (3333333333, around).\n')
    data, vs, edges, count, crossing = graph_of(os.path.join(DATA, 'smaller_graph', 'default'))
    got = integers(printed(out, '1111111111').split('2222222222')[0])
    fine &= say('polygons read from the shape file', list(zip(got[::2], got[1::2])) == vs)
    fine &= say('copies east and west', 'true' in printed(out, '3333333333'))

    n = len(vs)
    quarters = [(n * part // 4, n * (part + 1) // 4) for part in range(4)]
    if '--survey' in sys.argv:
        return survey(quarters) if fine else 1
    seen = ['Sweep%d' % part for part in range(4)]
    def sweep(name, quarter):
        lo, hi = quarter
        coq(name, 'From Work Require Import Map.\n'
            'Definition observers := Eval vm_compute in firstn %d (skipn %d (polygon_vertices ps)).\n' % (hi - lo, lo) +
            'Definition forced := Eval vm_compute in forallb (fun o => forced_order_b copies o (order_around copies o)) observers.\n'
            'Definition table := Eval vm_compute in map (fun o => (o, settled copies true o)) observers.\n', keep=True)
    with ThreadPoolExecutor(4) as pool:
        list(pool.map(sweep, seen, quarters))
    out = coq('Graph', 'From Work Require Import Map %s.\n' % ' '.join(seen) +
        'Eval vm_compute in (1111111111, %s).\n' % ' && '.join('%s.forced' % s for s in seen) +
        'Definition table := %s.\n' % ' ++ '.join('%s.table' % s for s in seen) +
        'Definition vis (o : coord) := match find (fun e => coord_eqb (fst e) o) table with Some e => snd e | None => Throw ImproperRange end.\n'
        'Definition g := Eval vm_compute in generate vis ps.\n'
        'Definition saved := Eval vm_compute in match bind g save_writes with Ok (k, ws) => (k, ws) | _ => (0, []) end.\n'
        'Eval vm_compute in (2222222222, saved).\n')
    fine &= say('order of the sweep the same for every accurate atan2', 'true' in printed(out, '1111111111'))
    nums = integers(printed(out, '2222222222'))
    length, writes = nums[0], list(zip(nums[1::2], nums[2::2]))
    mine = bytearray(length)
    for at, byte in writes:
        mine[at] = byte
    fine &= say('file of the generated graph, %d bytes' % length, bytes(mine) == data)

    text = ''
    for name in ('smaller_graph', 'smaller_graph_range_1', 'smaller_graph_range_2'):
        d = open(os.path.join(DATA, name, 'default'), 'rb').read()
        text += 'Definition %s_bytes := Eval vm_compute in fst (fold_left (fun m b => (PositiveMap.add (snd m) b (fst m), Pos.succ (snd m))) [%s] (PositiveMap.empty Z, 1%%positive)).\n' % (name, '; '.join(map(str, d)))
        text += 'Definition %s_file := mkF %d (fun i => match PositiveMap.find (Z.to_pos (i + 1)) %s_bytes with Some b => b | None => 0 end).\n' % (name, len(d), name)
        text += 'Definition %s := Eval vm_compute in deserialize_from_file 1000000000000 %s_file.\n' % (name, name)
    text += ('Definition answers (g h : graph) := forallb (fun a => forallb (fun b => match has_edge g a b, has_edge h a b, is_edge_meridian_crossing g a b, is_edge_meridian_crossing h a b with\n'
             '  | Ok x, Ok y, Ok z, Ok w => Bool.eqb x y && Bool.eqb z w | _, _, _, _ => false end) (get_vertices g)) (get_vertices g).\n'
             'Eval vm_compute in (1111111111, match Graph.g, smaller_graph with Ok a, Ok b => answers a b && answers b a && (length (get_vertices a) =? length (get_vertices b))%nat | _, _ => false end).\n'
             'Eval vm_compute in (2222222222, match smaller_graph_range_1, smaller_graph_range_2, smaller_graph with Ok a, Ok b, Ok c =>\n'
             '  match merge_graphs (dedup_polys [] (get_polygons a ++ get_polygons b)) [a; b] with Ok m => answers m c && answers c m | _ => false end | _, _, _ => false end).\n')
    out = coq('Load', 'From Work Require Import Map Graph.\n' + text)
    fine &= say('graph loaded from the file', 'true' in printed(out, '1111111111'))
    fine &= say('merger of the two halves', 'true' in printed(out, '2222222222'))
    print('%d vertices, %d edges, %d of them across the meridian, count written %d' % (n, len(edges), len(crossing), count))
    return 0 if fine else 1

if __name__ == '__main__':
    sys.exit(main())
