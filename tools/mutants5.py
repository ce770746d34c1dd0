# (file, definition, old, new, claim): edits that leave the formula right in exact arithmetic, or change it below the
# resolution of the exact-arithmetic theorems, so that only the double-precision theorems (C44-C50, C84-C93) can object
MUTANTS = [
 ('Erfa.v','eraSepp','eraPm (eraPxp a b)','sqrt (eraPdp a a * eraPdp b b - eraPdp a b * eraPdp a b)','double separation of close vectors (cancellation)'),
 ('Erfa.v','eraSepp','atan2 ss cs','(let c := cs / (eraPm a * eraPm b) in atan2 (sqrt (#1 - c * c)) c)','double separation from the cosine alone'),
 ('Erfa.v','eraC2s','atan2 z (sqrt d2)','asin (z / sqrt (d2 + z * z))','double latitude near the pole'),
 ('Erfa.v','eraC2s','atan2 z (sqrt d2)','atan2 z (sqrt ((d2 + z * z) - z * z))','double latitude near the pole (cancellation)'),
 ('Erfa.v','eraEpj','((dj1 - DJ00) + dj2)','((dj1 + dj2) - DJ00)','double Julian epoch: resolution of the Julian date'),
 ('Erfa.v','eraEpb','((dj1 - DJ00) + (dj2 + #36524.68648))','((dj1 + dj2) - #2415020.31352)','double Besselian epoch: resolution of the Julian date'),
 ('Erfa.v','eraEpj2jd','#51544.5 + (epj - #2000) * DJY','(#2451545.0 + (epj - #2000) * DJY) - #2400000.5','double date of a Julian epoch'),
 ('M_Misc.v','eraEra00','d1 + (d2 - DJ00)','(d1 + d2) - DJ00','double sidereal time: whole days first'),
 ('M_Misc.v','eraEra00','fmod d1 #1.0 + fmod d2 #1.0','fmod (d1 + d2) #1.0','double sidereal time: fraction of the day'),
 ('M_Misc.v','eraEra00','#0.00273781191135448','#0.002737811911354','double sidereal time: digits of the rate'),
 ('Erfa.v','eraAnp','let w := fmod a D2PI in','let w := a - D2PI * DINT (a / D2PI) in','double angle normalisation: exact remainder'),
 ('M_Sphere.v','palDrange','let result := fmod angle D2PI in','let result := angle - D2PI * DINT (angle / D2PI) in','double range reduction: exact remainder'),
 ('M_Sphere.v','palDh2e','atan2 z r)','asin z)','double declination near the pole'),
 ('M_Sphere.v','palDtp2s','sqrt (xi * xi + denom * denom)','sqrt ((xi * xi + eta * eta + #1) - (sdecz + eta * cdecz) * (sdecz + eta * cdecz))','double declination from the tangent plane'),
 ('M_Sphere.v','palDs2tp','sdec * cdecz - cdec * sdecz * cradif','(sdec - denom * sdecz) / cdecz','double tangent plane eta at a polar tangent point'),
 ('Erfa.v','eraPas','sin bp * cos ap - cos bp * sin ap * cos dl','(sin bp - (sin ap * sin bp + cos ap * cos bp * cos dl) * sin ap) / cos ap','double bearing near the pole'),
 ('Erfa.v','eraPm','sqrt','#1e-3 * sqrt (#1000000 * #1) * sqrt','double modulus (a rounding more)'),
 ('Erfa.v','eraPn','eraSxp (#1 / w) p','eraSxp (#1.000000000000001 / w) p','double unit vector'),
]
